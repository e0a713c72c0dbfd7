(** * Proofs about the monotone limiter of second-order regridding *)
From Coq Require Import Lra Psatz.
From Verif Require Import Base Loops Vec M_Interp M_Runoff P_Runoff M_Fregrid Spec_Fregrid P_Interp P_Interp2 P_Fregrid P_Fregrid2.
Local Open Scope R_scope.

Lemma at_in l i : (0 <= i < zlen l)%Z -> In (at_ l i) l.
Proof. intros H. unfold at_. apply nth_In. unfold zlen in H. lia. Qed.

Section Mono.
  Variables (p : opts) (T : list tile) (O : list otile).
  Hypothesis HW : wf Monotone p T O.
  Hypothesis HS : same_width T.
  Hypothesis HT : tame p T O.

  Lemma nz_pos : (1 <= p_nz p)%Z.
  Proof. apply HW. Qed.
  Notation V c := (in_value Monotone T c 0).
  Notation XV c := (x_value Monotone p T c 0).
  Notation mean t j i := (cell_mean Monotone t 0 j i).

  Lemma bounded_valid v : (valid p v = true -> - 10 ^ 20 < v < 10 ^ 20) -> negb (reqb v (missing p)) = valid p v.
  Proof.
    intros H. destruct (p_missing p) as [mv|] eqn:E. - apply valid_eqb. congruence.
    - assert (Ev : valid p v = true) by (unfold valid; now rewrite E). rewrite Ev in *. destruct (H eq_refl). rewrite missing_fill. unfold fill. rewrite E. destruct (reqb_spec v (- 10 ^ 20)); auto. lra.
  Qed.
  Lemma tile_wf t : In t T -> wf_tile Monotone p t.
  Proof. apply HW. Qed.
  Lemma halo_range t j i : In t T -> (-1 <= j <= t_ny t)%Z -> (-1 <= i <= t_nx t)%Z -> (0 <= (j + 1) * (t_nx t + 2) + i + 1 < zlen (t_data t))%Z.
  Proof. intros Ht Hj Hi. destruct (tile_wf t Ht) as (Hx & Hy & _ & _ & _ & HD & _). rewrite HD. pose proof nz_pos. assert (0 <= (j + 1) * (t_nx t + 2) + i + 1 < (t_nx t + 2) * (t_ny t + 2))%Z by nia. nia. Qed.
  Lemma mean_at t j i : mean t j i = at_ (t_data t) ((j + 1) * (t_nx t + 2) + i + 1).
  Proof. unfold cell_mean. f_equal. Qed.
  Lemma mean_valid t j i : In t T -> (-1 <= j <= t_ny t)%Z -> (-1 <= i <= t_nx t)%Z ->
    oget (t_data t) ((j + 1) * (t_nx t + 2) + i + 1) = Ok (mean t j i) /\ negb (reqb (mean t j i) (missing p)) = valid p (mean t j i)
    /\ (valid p (mean t j i) = true -> - 10 ^ 20 < mean t j i < 10 ^ 20).
  Proof.
    intros Ht Hj Hi. rewrite mean_at. pose proof (halo_range t j i Ht Hj Hi) as R. rewrite get_at by auto. split; auto.
    assert (B : valid p (at_ (t_data t) ((j + 1) * (t_nx t + 2) + i + 1)) = true -> - 10 ^ 20 < at_ (t_data t) ((j + 1) * (t_nx t + 2) + i + 1) < 10 ^ 20).
    { apply HT with t; auto. now apply at_in. }
    split; auto. now apply bounded_valid.
  Qed.

  (** ** Extremes of the neighbourhood *)
  Definition bar_step (t : tile) (b : R * R) (jj ii : Z) : outcome (R * R) :=
    do v <- oget (t_data t) ((jj + 1) * (t_nx t + 2) + ii + 1) ;
    if negb (reqb v (missing p)) then Ok (if rlt (fst b) v then v else fst b, if rlt v (snd b) then v else snd b) else Ok b.
  Definition bar_run (t : tile) (j i : Z) : outcome (R * R) :=
    ofor (j - 1) 3 (fun b jj => ofor (i - 1) 3 (fun b ii => bar_step t b jj ii) b) (- MAXVAL, MAXVAL).
  Definition nb (t : tile) (j i : Z) (v : R) : Prop := exists dj di, (-1 <= dj <= 1)%Z /\ (-1 <= di <= 1)%Z /\ v = mean t (j + dj) (i + di) /\ valid p v = true.
  Definition ext_of (P : R -> Prop) (b : R * R) : Prop :=
    (forall v, P v -> snd b <= v <= fst b) /\ (fst b = - MAXVAL \/ P (fst b)) /\ (snd b = MAXVAL \/ P (snd b)).
  Lemma ext_add (P : R -> Prop) b v : ext_of P b -> ext_of (fun x => P x \/ x = v) (if rlt (fst b) v then v else fst b, if rlt v (snd b) then v else snd b).
  Proof.
    intros (H1 & H2 & H3). unfold ext_of. destruct (rlt_spec (fst b) v), (rlt_spec v (snd b)); cbn [fst snd]; (split; [intros x [Hx| ->]; [pose proof (H1 x Hx)|]; lra | split; tauto]).
  Qed.
  Lemma ext_eq (P Q : R -> Prop) b : (forall v, P v <-> Q v) -> ext_of P b -> ext_of Q b.
  Proof. intros H (H1 & H2 & H3). split; [|split]. - intros v Hv. apply H1. now apply H. - rewrite <- H. auto. - rewrite <- H. auto. Qed.
  Lemma bar_ok t j i : In t T -> (0 <= j < t_ny t)%Z -> (0 <= i < t_nx t)%Z -> exists b, bar_run t j i = Ok b /\ ext_of (nb t j i) b.
  Proof.
    intros Ht Hj Hi. unfold bar_run.
    rewrite (ofor_nest2 (j - 1) 3 (i - 1) 3 (fun jj b ii => bar_step t b jj ii)) by lia. change (3 * 3)%Z with 9%Z.
    match goal with |- context [ofor 0 9 ?f ?s] => destruct (ofor_inv (fun m b => ext_of (fun v => exists n, (0 <= n < m)%Z /\ v = mean t (j - 1 + n / 3) (i - 1 + n mod 3) /\ valid p v = true) b) f 0 9 s) as (b & E & HB) end.
    - lia.
    - split; [|split]; cbn; auto. intros v (n & Hn & _). lia.
    - intros n b Hn HB. unfold bar_step. set (jj := (j - 1 + n / 3)%Z). set (ii := (i - 1 + n mod 3)%Z).
      assert (Hr : (0 <= n / 3 < 3 /\ 0 <= n mod 3 < 3)%Z). { pose proof (Z.mod_pos_bound n 3). split; [|lia]. split; [apply Z.div_pos; lia|apply Z.div_lt_upper_bound; lia]. }
      destruct (mean_valid t jj ii Ht) as (E1 & E2 & _); [unfold jj; lia|unfold ii; lia|]. rewrite E1. cbn [bind]. rewrite E2. destruct (valid p (mean t jj ii)) eqn:Ev.
      + eexists. split; [reflexivity|]. eapply ext_eq; [|apply ext_add; exact HB]. intros v. split.
        * intros [(n' & Hn' & H)| ->]; [exists n'; split; [lia|auto]|]. exists n. split; [lia|]. split; auto.
        * intros (n' & Hn' & -> & Hv). destruct (Z.eq_dec n' n) as [->|N]; [now right|]. left. exists n'. split; [lia|auto].
      + exists b. split; auto. eapply ext_eq; [|exact HB]. intros v. split; intros (n' & Hn' & -> & Hv).
        * exists n'. split; [lia|auto].
        * destruct (Z.eq_dec n' n) as [->|N]. { exfalso. fold jj in Hv. fold ii in Hv. congruence. } exists n'. split; [lia|auto].
    - exists b. split; [exact E|]. eapply ext_eq; [|exact HB]. intros v. split.
      + intros (n & Hn & -> & Hv). exists (n / 3 - 1)%Z, (n mod 3 - 1)%Z. pose proof (Z.mod_pos_bound n 3). assert (0 <= n / 3 < 3)%Z by (split; [apply Z.div_pos; lia|apply Z.div_lt_upper_bound; lia]).
        split; [lia|]. split; [lia|]. split; auto. f_equal; lia.
      + intros (dj & di & Hdj & Hdi & -> & Hv). exists ((dj + 1) * 3 + (di + 1))%Z. split; [lia|]. split; auto.
        rewrite (rowmajor_div 3), (rowmajor_mod 3) by lia. f_equal; lia.
  Qed.
  Definition barv (t : tile) (n : Z) : R * R := match bar_run t (n / t_nx t) (n mod t_nx t) with Ok b => b | _ => (0, 0) end.
  Lemma bars_run t : In t T -> exists l, bars p t = Ok l /\ vec l (t_nx t * t_ny t) (barv t)
    /\ forall n, (0 <= n < t_nx t * t_ny t)%Z -> ext_of (nb t (n / t_nx t) (n mod t_nx t)) (barv t n).
  Proof.
    intros Ht. destruct (tile_wf t Ht) as (Hx & Hy & _).
    assert (B : forall n, (0 <= n < t_nx t * t_ny t)%Z -> bar_run t (n / t_nx t) (n mod t_nx t) = Ok (barv t n) /\ ext_of (nb t (n / t_nx t) (n mod t_nx t)) (barv t n)).
    { intros n Hn. pose proof (Z.mod_pos_bound n (t_nx t) Hx). assert (0 <= n / t_nx t < t_ny t)%Z by (split; [apply Z.div_pos; lia|apply Z.div_lt_upper_bound; lia]).
      destruct (bar_ok t (n / t_nx t) (n mod t_nx t)) as (b & E & Hb); auto. unfold barv. rewrite E. auto. }
    exists (map (barv t) (zseq 0 (t_ny t * t_nx t))). split; [|split].
    - unfold bars. rewrite (ofor_nest2 0 (t_ny t) 0 (t_nx t) (fun j l i => do b <- bar_run t j i ; Ok (l ++ [b]))) by lia.
      apply ofor_grow; [nia|]. intros b n Hn. destruct (B n) as (E & _); [lia|]. rewrite !Z.add_0_l, E. reflexivity.
    - rewrite (Z.mul_comm (t_nx t)). apply vec_map. nia.
    - intros n Hn. now apply B.
  Qed.

  (** ** Extremes over the pieces of a cell *)
  Definition nx1 := t_nx (last T no_tile).
  Lemma last_in {A} (l : list A) d : l <> [] -> In (last l d) l.
  Proof. induction l as [|a l IH]; [congruence|]. intros _. destruct l as [|b l]; [now left|]. right. apply IH. discriminate. Qed.
  Lemma width o c : wf_cell T o c -> t_nx (src T c) = nx1.
  Proof. intros Hc. apply HS; [apply (src_get T o c Hc)|]. apply last_in. destruct Hc as (Hc & _). intros ->. unfold zlen in Hc. cbn in Hc. lia. Qed.
  Definition Xd (c : xc) : R := if valid p (V c) then XV c else missing p.
  Definition size (q : Z) : Z := (t_nx (tile_at T q) * t_ny (tile_at T q))%Z.
  Definition reps (ext : list (list (R * R))) (E : Z -> Z -> R * R) : Prop :=
    zlen ext = zlen T /\ forall q, (0 <= q < zlen T)%Z -> exists e, zget ext q = Some e /\ vec e (size q) (E q).
  Lemma zget_oget {A} (l : list A) i x : zget l i = Some x -> oget l i = Ok x.
  Proof. intros H. now apply oget_Ok. Qed.

  Lemma piece_value o c : In o O -> In c (o_xgrid o) -> wf_cell T o c /\
    oget T (x_t c) = Ok (src T c) /\ In (src T c) T /\ (x_j c * nx1 + x_i c)%Z = src_cell T c /\ (0 <= src_cell T c < size (x_t c))%Z
    /\ oget (t_data (src T c)) ((x_j c + 1) * (nx1 + 2) + x_i c + 1) = Ok (V c)
    /\ negb (reqb (V c) (missing p)) = valid p (V c)
    /\ (valid p (V c) = true -> - 10 ^ 20 < V c < 10 ^ 20)
    /\ (valid p (V c) = true -> (do g <- oget (t_gmask (src T c)) (src_cell T c) ;
          if negb (g =? 0)%Z then Ok (V c) else do gx <- oget (t_gx (src T c)) (src_cell T c) ; do gy <- oget (t_gy (src T c)) (src_cell T c) ; Ok (V c + gx * x_di c + gy * x_dj c)) = Ok (XV c)).
  Proof.
    intros Ho Hc. assert (Wc : wf_cell T o c) by (destruct HW as (_ & _ & _ & HO); now apply HO). split; auto. destruct (src_get T o c Wc) as (E & HI).
    pose proof (width o c Wc) as Ew. pose proof (src_range T o c Wc) as Hr. destruct (tile_wf _ HI) as (Hx & Hy & _ & _ & _ & HD & HGX & HGY & HG). pose proof nz_pos as Hnz. assert (Hle : (t_nx (src T c) * t_ny (src T c) <= p_nz p * (t_nx (src T c) * t_ny (src T c)))%Z) by nia.
    split; auto. split; auto. split; [unfold src_cell; now rewrite Ew|]. split; [exact Hr|].
    destruct Wc as (Wt & Wi & Wj & _). destruct (mean_valid (src T c) (x_j c) (x_i c) HI) as (E1 & E2 & E3); try lia. change (mean (src T c) (x_j c) (x_i c)) with (V c) in *.
    rewrite <- Ew. split; [exact E1|]. split; [exact E2|]. split; [exact E3|]. intros Hv.
    set (t := src T c) in *. assert (EG : oget (t_gmask t) (src_cell T c) = Ok (nth (Z.to_nat (src_cell T c)) (t_gmask t) 0%Z)).
    { apply oget_Ok. unfold zget. destruct (Z.ltb_spec (src_cell T c) 0); [lia|]. apply nth_error_nth'. unfold zlen in HG. lia. }
    rewrite EG. cbn [bind]. unfold x_value. cbv zeta. fold t. change (0 * (t_nx t * t_ny t) + src_cell T c)%Z with (src_cell T c).
    assert (EM : negb (nth (Z.to_nat (src_cell T c)) (t_gmask t) 0 =? 0)%Z = masked p t (src_cell T c)).
    { unfold masked. destruct (p_missing p) eqn:Ep; auto. destruct HT as (_ & _ & HM). assert (E0 : nth (Z.to_nat (src_cell T c)) (t_gmask t) 0%Z = 0%Z) by (apply (HM Ep t); auto; apply nth_In; unfold zlen in HG; lia). now rewrite E0. }
    rewrite EM. destruct (masked p t (src_cell T c)); auto. rewrite !get_at by lia. cbn [bind]. now rewrite <- Rplus_assoc.
  Qed.

  Definition from_src (c : xc) (q n : Z) : Prop := x_t c = q /\ src_cell T c = n /\ valid p (V c) = true.
  Lemma ext_fold o l ext xs E (P : Z -> Z -> R -> Prop) : In o O -> (forall c, In c l -> In c (o_xgrid o)) -> reps ext E ->
    (forall q n, (0 <= q < zlen T)%Z -> (0 <= n < size q)%Z -> ext_of (P q n) (E q n)) ->
    exists ext' E', ofold (mono_cell p T nx1) l (ext, xs) = Ok (ext', xs ++ map Xd l) /\ reps ext' E'
      /\ forall q n, (0 <= q < zlen T)%Z -> (0 <= n < size q)%Z -> ext_of (fun x => P q n x \/ exists c, In c l /\ from_src c q n /\ x = XV c) (E' q n).
  Proof.
    intros Ho. revert ext xs E P. induction l as [|c l IH]; intros ext xs E P Hl HR HE.
    - exists ext, E. cbn. rewrite app_nil_r. split; auto. split; auto. intros q n Hq Hn. eapply ext_eq; [|apply HE; auto]. intros v. split; [auto|]. intros [?|(c & [] & _)]; auto.
    - cbn [ofold map]. destruct (piece_value o c Ho (Hl c (or_introl eq_refl))) as (Wc & E1 & HI & En & Hr & E2 & E3 & _ & E4). destruct Wc as (Wt & _).
      unfold mono_cell at 1. rewrite E1. cbn [bind]. rewrite En, E2. cbn [bind]. rewrite E3. unfold Xd at 1.
      destruct (valid p (V c)) eqn:Ev.
      + specialize (E4 eq_refl).
        destruct (oget (t_gmask (src T c)) (src_cell T c)) as [g| |] eqn:EG; try discriminate E4. cbn [bind] in E4 |- *. rewrite E4. cbn [bind].
        destruct HR as (HL & HR). destruct (HR (x_t c) Wt) as (e & Ge & Ve). rewrite (zget_oget _ _ _ Ge). cbn [bind].
        rewrite (vec_get _ _ _ _ Ve) by auto. cbn [bind].
        set (b' := (if rlt (fst (E (x_t c) (src_cell T c))) (XV c) then XV c else fst (E (x_t c) (src_cell T c)), if rlt (XV c) (snd (E (x_t c) (src_cell T c))) then XV c else snd (E (x_t c) (src_cell T c)))).
        destruct (vec_set e _ _ (fun n => if (n =? src_cell T c)%Z then b' else E (x_t c) n) (src_cell T c) b' Ve Hr) as (e' & Ee & Ve'). { reflexivity. }
        rewrite Ee. cbn [bind]. destruct (zset_Some ext (x_t c) e') as (ext' & Ex); [lia|]. rewrite (proj2 (oset_Ok _ _ _ _) Ex). cbn [bind].
        destruct (IH ext' (xs ++ [XV c]) (fun q n => if (q =? x_t c)%Z && (n =? src_cell T c)%Z then b' else E q n) (fun q n x => P q n x \/ (from_src c q n /\ x = XV c))) as (ext2 & E' & EF & R' & HE').
        * intros; apply Hl; now right.
        * split. { rewrite (zset_len _ _ _ _ Ex). auto. } intros q Hq. destruct (Z.eqb_spec q (x_t c)) as [->|N].
          -- exists e'. split; [apply (zget_zset_eq _ _ _ _ Ex)|]. eapply vec_ext; [|exact Ve']. intros n Hn. reflexivity.
          -- rewrite (zget_zset_ne _ _ _ _ _ Ex) by auto. destruct (HR q Hq) as (e0 & G0 & V0). exists e0. split; auto.
        * intros q n Hq Hn. destruct (Z.eqb_spec q (x_t c)) as [->|N]; [destruct (Z.eqb_spec n (src_cell T c)) as [->|N]|]; cbn [andb].
          -- eapply ext_eq; [|apply ext_add; apply HE; auto]. intros v. unfold from_src. rewrite Ev. tauto.
          -- eapply ext_eq; [|apply HE; auto]. intros v. unfold from_src. split; [auto|]. intros [?|((_ & C & _) & _)]; auto. congruence.
          -- eapply ext_eq; [|apply HE; auto]. intros v. unfold from_src. split; [auto|]. intros [?|((C & _) & _)]; auto. congruence.
        * exists ext2, E'. split. { rewrite EF, <- app_assoc. reflexivity. } split; auto. intros q n Hq Hn. eapply ext_eq; [|apply HE'; auto]. intros v. cbn [In]. split.
          -- intros [[?|(F & ->)]|(c' & Hc' & H)]; auto. { right. exists c. auto. } right. exists c'. auto.
          -- intros [?|(c' & [<-|Hc'] & F & ->)]; auto. right. exists c'. auto.
      + cbn [bind]. destruct (IH ext (xs ++ [missing p]) E P) as (ext2 & E' & EF & R' & HE'); auto. { intros; apply Hl; now right. }
        exists ext2, E'. split. { rewrite EF, <- app_assoc. reflexivity. } split; auto. intros q n Hq Hn. eapply ext_eq; [|apply HE'; auto]. intros v. cbn [In]. split.
        * intros [?|(c' & Hc' & H)]; auto. right. exists c'. auto.
        * intros [?|(c' & [<-|Hc'] & F & ->)]; auto. { destruct F as (_ & _ & F). congruence. } right. exists c'. auto.
  Qed.

  (** ** Limiting *)
  Definition sc (f : R) (fe fb : R * R) : R :=
    if rlt (fst fb) (fst fe) then (fst fb - f) / (fst fe - f) else if rlt (snd fe) (snd fb) then (snd fb - f) / (snd fe - f) else 1.
  Lemma neighbour_nb o c v : wf_cell T o c -> (neighbour p T c v <-> nb (src T c) (src_cell T c / t_nx (src T c)) (src_cell T c mod t_nx (src T c)) v).
  Proof. intros (_ & Hi & _). unfold src_cell. rewrite rowmajor_div, rowmajor_mod by lia. reflexivity. Qed.
  Lemma same_src o c c' : wf_cell T o c -> wf_cell T o c' -> x_t c' = x_t c -> src_cell T c' = src_cell T c -> same_source c c'.
  Proof.
    intros (_ & Hi & _) (_ & Hi' & _) Et En. unfold src_cell, src in *. rewrite Et in *. apply rowmajor_inj in En; auto. destruct En. repeat split; congruence.
  Qed.
  Lemma sc_01 f x (fe fb : R * R) : snd fe <= x <= fst fe -> snd fb <= f <= fst fb -> 0 <= sc f fe fb <= 1.
  Proof.
    intros Hx Hf. unfold sc. destruct (rlt_spec (fst fb) (fst fe)) as [C|C]; [|destruct (rlt_spec (snd fe) (snd fb)) as [D|D]; [|lra]].
    - assert (0 < fst fe - f) by lra. split. + apply Rmult_le_pos; [lra|]. left. now apply Rinv_0_lt_compat. + apply Rmult_le_reg_r with (fst fe - f); auto. unfold Rdiv. rewrite Rmult_assoc, Rinv_l by lra. lra.
    - assert (0 < f - snd fe) by lra. replace ((snd fb - f) / (snd fe - f)) with ((f - snd fb) / (f - snd fe)) by (field; lra). split. + apply Rmult_le_pos; [lra|]. left. now apply Rinv_0_lt_compat. + apply Rmult_le_reg_r with (f - snd fe); auto. unfold Rdiv. rewrite Rmult_assoc, Rinv_l by lra. lra.
  Qed.
  Lemma conv f x s : 0 <= s <= 1 -> (f <= f + s * (x - f) <= x \/ x <= f + s * (x - f) <= f).
  Proof. intros Hs. destruct (Rle_dec f x); [left|right]; nra. Qed.
  Lemma sc_upper f x (fe fb : R * R) : snd fe <= x <= fst fe -> snd fb <= f <= fst fb -> f + sc f fe fb * (x - f) <= fst fb.
  Proof.
    intros Hx Hf. pose proof (sc_01 f x fe fb Hx Hf) as S01. destruct (rlt_spec (fst fb) (fst fe)) as [C|C].
    - assert (E : sc f fe fb * (fst fe - f) = fst fb - f). { unfold sc. destruct (rlt_spec (fst fb) (fst fe)); [|contradiction]. field. lra. }
      assert (sc f fe fb * (x - f) <= sc f fe fb * (fst fe - f)) by (apply Rmult_le_compat_l; lra). lra.
    - destruct (conv f x _ S01); lra.
  Qed.
  Lemma sc_lower f x (fe fb : R * R) : snd fe <= x <= fst fe -> snd fb <= f <= fst fb -> (fst fb < fst fe -> snd fb <= snd fe) -> snd fb <= f + sc f fe fb * (x - f).
  Proof.
    intros Hx Hf Hn. pose proof (sc_01 f x fe fb Hx Hf) as S01. destruct (rlt_spec (fst fb) (fst fe)) as [C|C].
    - specialize (Hn C). destruct (conv f x _ S01); lra.
    - destruct (rlt_spec (snd fe) (snd fb)) as [D|D].
      + assert (E : sc f fe fb * (snd fe - f) = snd fb - f). { unfold sc. destruct (rlt_spec (fst fb) (fst fe)); [contradiction|]. destruct (rlt_spec (snd fe) (snd fb)); [|contradiction]. field. lra. }
        assert (sc f fe fb * (snd fe - f) <= sc f fe fb * (x - f)) by (apply Rmult_le_compat_l; lra). lra.
      + destruct (conv f x _ S01); lra.
  Qed.
  Lemma limit_ok o c bar ext E : In o O -> In c (o_xgrid o) -> reps bar (fun q => barv (tile_at T q)) -> reps ext E ->
    (valid p (V c) = true -> snd (E (x_t c) (src_cell T c)) <= XV c <= fst (E (x_t c) (src_cell T c)) /\ snd (barv (src T c) (src_cell T c)) <= V c <= fst (barv (src T c) (src_cell T c))) ->
    limit p T nx1 bar ext c (Xd c) = Ok (if valid p (V c) then V c + sc (V c) (E (x_t c) (src_cell T c)) (barv (src T c) (src_cell T c)) * (XV c - V c) else missing p).
  Proof.
    intros Ho Hc (_ & RB) (_ & RE) HB. destruct (piece_value o c Ho Hc) as (Wc & E1 & HI & En & Hr & E2 & E3 & _ & E4). destruct Wc as (Wt & _).
    unfold limit. rewrite E1. cbn [bind]. rewrite En, E2. cbn [bind]. unfold Xd. destruct (valid p (V c)) eqn:Ev.
    2:{ destruct (reqb_spec (missing p) (missing p)); [reflexivity|contradiction]. }
    destruct (HB eq_refl) as (B1 & B2). clear HB.
    assert (Hne : XV c <> missing p). { rewrite missing_fill. destruct HT as (_ & H & _). assert (Hall : In c (all_cells O)) by (apply in_flat_map; eauto). destruct (H c Hall Ev) as (_ & [(_ & ?)|(_ & ?)]); lra. }
    destruct (reqb_spec (XV c) (missing p)); [contradiction|].
    destruct (RE _ Wt) as (e & Ge & Ve). rewrite (zget_oget _ _ _ Ge). cbn [bind]. rewrite (vec_get _ _ _ _ Ve) by auto. cbn [bind].
    destruct (RB _ Wt) as (b & Gb & Vb). rewrite (zget_oget _ _ _ Gb). cbn [bind]. rewrite (vec_get _ _ _ _ Vb) by auto. cbn [bind]. change (tile_at T (x_t c)) with (src T c).
    set (fe := E (x_t c) (src_cell T c)) in *. set (fb := barv (src T c) (src_cell T c)) in *. set (f := V c) in *. set (x := XV c) in *.
    pose proof (sc_upper f x fe fb B1 B2) as U. unfold sc in U |- *.
    destruct (rlt_spec (fst fb) (fst fe)) as [C|C]; [|destruct (rlt_spec (snd fe) (snd fb)) as [D|D]].
    - replace (f + (x - f) / (fst fe - f) * (fst fb - f)) with (f + (fst fb - f) / (fst fe - f) * (x - f)) by (field; lra).
      cbv zeta. destruct (rlt_spec (fst fb) (f + (fst fb - f) / (fst fe - f) * (x - f))); [lra|reflexivity].
    - assert (L := sc_lower f x fe fb B1 B2 ltac:(intros; contradiction)). unfold sc in L. destruct (rlt_spec (fst fb) (fst fe)); [contradiction|]. destruct (rlt_spec (snd fe) (snd fb)); [|contradiction].
      replace (f + (x - f) / (snd fe - f) * (snd fb - f)) with (f + (snd fb - f) / (snd fe - f) * (x - f)) by (field; lra).
      cbv zeta. destruct (rlt_spec (f + (snd fb - f) / (snd fe - f) * (x - f)) (snd fb)); [lra|reflexivity].
    - f_equal. lra.
  Qed.

  Lemma ofold_filter {A S} (f : S -> A -> outcome S) (g : A -> bool) l s : ofold f (filter g l) s = ofold (fun s x => if g x then f s x else Ok s) l s.
  Proof. revert s. induction l as [|a l IH]; intros s; cbn; auto. destruct (g a); cbn; auto. apply bind_ext. auto. Qed.
  Lemma push_gen {A B} (f : A -> outcome B) (val : A -> B) l acc : (forall x, In x l -> f x = Ok (val x)) ->
    ofold (fun l x => do y <- f x ; Ok (l ++ [y])) l acc = Ok (acc ++ map val l).
  Proof.
    revert acc. induction l as [|x l IH]; intros acc H; cbn. { now rewrite app_nil_r. }
    rewrite H by (now left). cbn [bind]. rewrite IH by (intros; apply H; now right). now rewrite <- app_assoc.
  Qed.

  (** What the limiting factor does. *)
  Definition limits (o : otile) (s : Z -> Z -> R) : Prop :=
    forall c, In c (o_xgrid o) -> valid p (V c) = true -> let y := V c + s (x_t c) (src_cell T c) * (XV c - V c) in
          0 <= s (x_t c) (src_cell T c) <= 1
          /\ (forall hi, (forall v, neighbour p T c v -> v <= hi) -> y <= hi)
          /\ (~ (overshoots p T o c /\ undershoots p T o c) -> forall lo, (forall v, neighbour p T c v -> lo <= v) -> lo <= y)
          /\ (~ overshoots p T o c -> ~ undershoots p T o c -> s (x_t c) (src_cell T c) = 1)
          /\ (forall top c', neighbour p T c top -> (forall v, neighbour p T c v -> v <= top) -> In c' (o_xgrid o) -> same_source c c' ->
               (forall c2, In c2 (o_xgrid o) -> same_source c c2 -> XV c2 <= XV c') -> top < XV c' -> s (x_t c) (src_cell T c) * (XV c' - V c) = top - V c)
          /\ (forall bot c', ~ overshoots p T o c -> neighbour p T c bot -> (forall v, neighbour p T c v -> bot <= v) -> In c' (o_xgrid o) -> same_source c c' ->
               (forall c2, In c2 (o_xgrid o) -> same_source c c2 -> XV c' <= XV c2) -> XV c' < bot -> s (x_t c) (src_cell T c) * (XV c' - V c) = bot - V c).
  Lemma mono_acc o : In o O -> let M := (o_nx o * o_ny o * p_nz p)%Z in
    exists (s : Z -> Z -> R) d a u, M_Fregrid.accumulate Monotone p T o (repeat 0 (Z.to_nat M), repeat 0 (Z.to_nat M), repeat 0%Z (Z.to_nat M)) = Ok (d, a, u)
     /\ vec d M (fun n => rsum (fun c => x_weight p T c * (V c + s (x_t c) (src_cell T c) * (XV c - V c))) (used Monotone p T o n))
     /\ vec a M (weight_on Monotone p T o) /\ vec u M (fun _ => 0%Z)
     /\ limits o s.
  Proof.
    intros Ho M. assert (HO : wf_otile T o) by (destruct HW as (_ & _ & _ & HO); now apply HO). destruct HO as (Hox & Hoy & _ & HX).
    assert (HM : (0 <= M)%Z) by (unfold M; pose proof nz_pos; nia).
    unfold M_Fregrid.accumulate, mono. fold no_tile. fold nx1.
    destruct (tiles_run (bars p) T []) as (bar & EB & FB). { intros t Ht. destruct (bars_run t Ht) as (l & E & _). eauto. }
    rewrite EB. cbn [bind app]. clear EB.
    assert (RB : reps bar (fun q => barv (tile_at T q))).
    { destruct (Forall2_at _ no_tile [] _ _ FB) as (L & H). split; auto. intros q Hq. specialize (H q Hq). fold (tile_at T q) in H. assert (Ht : In (tile_at T q) T) by (unfold tile_at; apply nth_In; unfold zlen in Hq; lia).
      destruct (bars_run _ Ht) as (l & E & Vl & _). rewrite H in E. injection E as <-. exists (nth (Z.to_nat q) bar []). split; auto. unfold zget. destruct (Z.ltb_spec q 0); [lia|]. apply nth_error_nth'. unfold zlen in *. lia. }
    set (ext0 := map (fun t => repeat (- MAXVAL, MAXVAL) (Z.to_nat (t_nx t * t_ny t))) T).
    destruct (ext_fold o (o_xgrid o) ext0 [] (fun _ _ => (- MAXVAL, MAXVAL)) (fun _ _ _ => False) Ho) as (ext & E & EF & RE & HE).
    { auto. }
    { split. { unfold ext0. now rewrite zlen_map. } intros q Hq. assert (Ht : In (tile_at T q) T) by (unfold tile_at; apply nth_In; unfold zlen in Hq; lia).
      exists (repeat (- MAXVAL, MAXVAL) (Z.to_nat (size q))). split.
      - unfold ext0. rewrite zget_map. assert (G : zget T q = Some (tile_at T q)). { unfold zget. destruct (Z.ltb_spec q 0); [lia|]. apply nth_error_nth'. unfold zlen in Hq. lia. } rewrite G. reflexivity.
      - apply vec_repeat. destruct (tile_wf _ Ht) as (? & ? & _). unfold size. nia. }
    { intros q n _ _. split; [intros v []|]. cbn. auto. }
    rewrite EF. cbn [bind app]. clear EF.
    assert (BND : forall c, In c (o_xgrid o) -> valid p (V c) = true ->
       snd (E (x_t c) (src_cell T c)) <= XV c <= fst (E (x_t c) (src_cell T c)) /\ snd (barv (src T c) (src_cell T c)) <= V c <= fst (barv (src T c) (src_cell T c))).
    { intros c Hc Hv. destruct (piece_value o c Ho Hc) as (Wc & _ & HI & _ & Hr & _). split.
      - destruct (HE (x_t c) (src_cell T c)) as (H & _); auto. { destruct Wc; auto. } apply H. right. exists c. split; auto. split; [|auto]. repeat split; auto.
      - destruct (bars_run _ HI) as (_ & _ & _ & H). destruct (H (src_cell T c) Hr) as (H1 & _). apply H1. apply (neighbour_nb o); auto. exists 0%Z, 0%Z. repeat split; try lia; auto. rewrite !Z.add_0_r. reflexivity. }
    set (s := fun q n => sc (mean (tile_at T q) (n / t_nx (tile_at T q)) (n mod t_nx (tile_at T q))) (E q n) (barv (tile_at T q) n)).
    assert (ES : forall c, wf_cell T o c -> s (x_t c) (src_cell T c) = sc (V c) (E (x_t c) (src_cell T c)) (barv (src T c) (src_cell T c))).
    { intros c (_ & Wi & _). unfold s. change (tile_at T (x_t c)) with (src T c). unfold src_cell at 1 2. rewrite rowmajor_div, rowmajor_mod by lia. reflexivity. }
    set (Y := fun c => if valid p (V c) then V c + s (x_t c) (src_cell T c) * (XV c - V c) else missing p).
    rewrite combine_self.
    rewrite (push_gen (fun cx => limit p T nx1 bar ext (fst cx) (snd cx)) (fun cx => Y (fst cx))).
    2:{ intros cx Hcx. apply in_map_iff in Hcx. destruct Hcx as (c & <- & Hc). cbn [fst snd]. rewrite (limit_ok o c bar ext E Ho Hc RB RE) by (intros; now apply BND). unfold Y. rewrite ES by auto. reflexivity. }
    cbn [bind app]. rewrite map_map. cbn [fst]. rewrite combine_self.
    assert (NEY : forall c, In c (o_xgrid o) -> valid p (V c) = true -> Y c <> missing p).
    { intros c Hc Hv. unfold Y. rewrite Hv, ES by auto. destruct (BND c Hc Hv) as (B1 & B2). pose proof (sc_01 _ _ _ _ B1 B2) as S01. rewrite missing_fill.
      destruct HT as (_ & H & _). assert (Hall : In c (all_cells O)) by (apply in_flat_map; eauto). destruct (H c Hall Hv) as (_ & [(? & ?)|(? & ?)]); destruct (conv (V c) (XV c) _ S01); lra. }
    assert (EA : forall st, ofold (cell_mono p T nx1 (o_nx o)) (map (fun c => (c, Y c)) (o_xgrid o)) st
       = ofold (fun st c => add false (dst_cell o c) (V c + s (x_t c) (src_cell T c) * (XV c - V c)) (x_weight p T c) st) (filter (fun c => valid p (V c)) (o_xgrid o)) st).
    { intros st. rewrite ofold_filter.
      assert (G : forall l st, (forall c, In c l -> In c (o_xgrid o)) -> ofold (cell_mono p T nx1 (o_nx o)) (map (fun c => (c, Y c)) l) st
         = ofold (fun st c => if valid p (V c) then add false (dst_cell o c) (V c + s (x_t c) (src_cell T c) * (XV c - V c)) (x_weight p T c) st else Ok st) l st).
      { induction l as [|c l IH]; intros st' Hl; auto. cbn [map ofold]. pose proof (Hl c (or_introl eq_refl)) as Hc. destruct (piece_value o c Ho Hc) as (Wc & E1 & HI & En & Hr & _).
        unfold cell_mono at 1. destruct (valid p (V c)) eqn:Ev.
        - destruct (reqb_spec (Y c) (missing p)) as [C|C]; [exfalso; now apply (NEY c)|]. rewrite E1. cbn [bind]. rewrite En. rewrite (weigh_ok Monotone p T o tile_wf c) by auto. cbn [bind].
          rewrite (scale_ok Monotone p T o (proj1 (proj2 HW)) tile_wf c) by (auto; discriminate). cbn [bind]. rewrite <- (weight_eq p T c). fold (dst_cell o c). unfold Y at 1. rewrite Ev.
          destruct (add _ _ _ _ _); cbn [bind]; auto. apply IH. intros; apply Hl; now right.
        - unfold Y at 1. rewrite Ev. destruct (reqb_spec (missing p) (missing p)); [|contradiction]. cbn [bind]. apply IH. intros; apply Hl; now right. }
      apply G. auto. }
    rewrite EA. clear EA.
    destruct (add_all (dst_cell o) (fun c => V c + s (x_t c) (src_cell T c) * (XV c - V c)) (x_weight p T) false M (filter (fun c => valid p (V c)) (o_xgrid o)) (fun _ => 0) (fun _ => 0) (fun _ => 0%Z) _ _ _
       (vec_repeat 0 M HM) (vec_repeat 0 M HM) (vec_repeat 0%Z M HM)) as (d & a & u & EQ & Vd & Va & Vu).
    { intros c Hc. apply filter_In in Hc. destruct Hc as (Hc & _). unfold M. pose proof (dst_range T o c (HX c Hc)). pose proof nz_pos. nia. }
    assert (UF : forall n, filter (fun c => (dst_cell o c =? n)%Z) (filter (fun c => valid p (V c)) (o_xgrid o)) = used Monotone p T o n).
    { intros n. unfold used, over. rewrite !filter_filter. apply filter_ext. intros c. apply andb_comm. }
    exists s, d, a, u. split; [exact EQ|]. split; [|split; [|split; [exact Vu|]]].
    - eapply vec_ext; [|exact Vd]. intros n Hn. cbv beta. rewrite UF. lra.
    - eapply vec_ext; [|exact Va]. intros n Hn. cbv beta. rewrite UF. unfold weight_on. lra.
    - intros c Hc Hv. cbv zeta. destruct (piece_value o c Ho Hc) as (Wc & E1 & HI & En & Hr & _ & _ & BV & _). specialize (BV Hv). rewrite ES by auto. destruct (BND c Hc Hv) as (B1 & B2).
      set (fe := E (x_t c) (src_cell T c)) in *. set (fb := barv (src T c) (src_cell T c)) in *.
      assert (XB : - MAXVAL < XV c < MAXVAL). { destruct HT as (_ & H & _). assert (Hall : In c (all_cells O)) by (apply in_flat_map; eauto). destruct (H c Hall Hv) as (H1 & _). unfold MAXVAL. exact H1. }
      destruct (bars_run _ HI) as (_ & _ & _ & HB). destruct (HB (src_cell T c) Hr) as (NB & NB1 & NB2). fold fb in NB, NB1, NB2.
      destruct (HE (x_t c) (src_cell T c)) as (PE & PE1 & PE2); auto. { destruct Wc; auto. } fold fe in PE, PE1, PE2.
      destruct NB1 as [NB1|NB1]; [unfold MAXVAL in *; lra|]. destruct NB2 as [NB2|NB2]; [unfold MAXVAL in *; lra|].
      destruct PE1 as [PE1|[[]|(c1 & Hc1 & F1 & EX1)]]; [lra|]. destruct PE2 as [PE2|[[]|(c2 & Hc2 & F2 & EX2)]]; [lra|].
      assert (OV : fst fb < fst fe -> overshoots p T o c).
      { intros C. exists c1. split; auto. destruct F1 as (F1 & F1' & _). split; [apply (same_src o); auto|]. intros v Hnv. apply (neighbour_nb o) in Hnv; auto. pose proof (NB v Hnv). rewrite <- EX1. lra. }
      assert (UN : snd fe < snd fb -> undershoots p T o c).
      { intros C. exists c2. split; auto. destruct F2 as (F2 & F2' & _). split; [apply (same_src o); auto|]. intros v Hnv. apply (neighbour_nb o) in Hnv; auto. pose proof (NB v Hnv). rewrite <- EX2. lra. }
      assert (FS : forall c', In c' (o_xgrid o) -> same_source c c' -> from_src c' (x_t c) (src_cell T c) /\ V c' = V c).
      { intros c' Hc' (St & Sj & Si). assert (EV' : V c' = V c) by (unfold in_value, src; now rewrite St, Sj, Si). split; auto. repeat split; auto. { unfold src_cell, src. now rewrite St, Sj, Si. } now rewrite EV'. }
      assert (TOP : forall top, neighbour p T c top -> (forall v, neighbour p T c v -> v <= top) -> fst fb = top).
      { intros top Ht Hmax. apply Rle_antisym. - apply Hmax. apply (neighbour_nb o); auto. - apply NB. apply (neighbour_nb o); auto. }
      assert (BOT : forall bot, neighbour p T c bot -> (forall v, neighbour p T c v -> bot <= v) -> snd fb = bot).
      { intros bot Ht Hmin. apply Rle_antisym. - apply NB. apply (neighbour_nb o); auto. - apply Hmin. apply (neighbour_nb o); auto. }
      split; [apply (sc_01 _ (XV c)); auto|]. split; [|split; [|split; [|split]]].
      + intros hi Hhi. pose proof (sc_upper _ _ _ _ B1 B2) as U. apply (neighbour_nb o) in NB1; auto. pose proof (Hhi _ NB1). lra.
      + intros Hnot lo Hlo. assert (L : snd fb <= V c + sc (V c) fe fb * (XV c - V c)). { apply sc_lower; auto. intros C. destruct (Rle_dec (snd fb) (snd fe)); auto. exfalso. apply Hnot. split; [auto|]. apply UN. lra. }
        apply (neighbour_nb o) in NB2; auto. pose proof (Hlo _ NB2). lra.
      + intros N1 N2. unfold sc. destruct (rlt_spec (fst fb) (fst fe)); [exfalso; auto|]. destruct (rlt_spec (snd fe) (snd fb)); [exfalso; auto|]. reflexivity.
      + intros top c' Ht Hmax Hc' HSS Hbig Hlt. rewrite <- (TOP top) in * by auto. destruct (FS c' Hc' HSS) as (F' & EV').
        assert (EM : fst fe = XV c'). { apply Rle_antisym. - rewrite EX1. apply Hbig; auto. destruct F1 as (? & ? & _). apply (same_src o); auto. - apply PE. right. exists c'. auto. }
        unfold sc. destruct (rlt_spec (fst fb) (fst fe)); [|lra]. rewrite EM. field. lra.
      + intros bot c' HNO Ht Hmin Hc' HSS Hsm Hlt. rewrite <- (BOT bot) in * by auto. destruct (FS c' Hc' HSS) as (F' & EV').
        assert (EM : snd fe = XV c'). { apply Rle_antisym. - apply PE. right. exists c'. auto. - rewrite EX2. apply Hsm; auto. destruct F2 as (? & ? & _). apply (same_src o); auto. }
        unfold sc. destruct (rlt_spec (fst fb) (fst fe)); [exfalso; auto|]. destruct (rlt_spec (snd fe) (snd fb)); [|lra]. rewrite EM. field. lra.
  Qed.

  Definition y_of (s : Z -> Z -> R) (c : xc) : R := V c + s (x_t c) (src_cell T c) * (XV c - V c).
  Definition mono_value (o : otile) (s : Z -> Z -> R) (n : Z) : R :=
    let S := rsum (fun c => x_weight p T c * y_of s c) (used Monotone p T o n) in
    if p_sum p then (if Req_EM_T (weight_on Monotone p T o n) 0 then fill p else S)
    else if Rlt_dec 0 (weight_on Monotone p T o n) then S / weight_on Monotone p T o n else fill p.
  Lemma mono_tile o : In o O -> p_target p = false -> exists s r, one_tile Monotone p T o = Ok r /\ vec r (o_nx o * o_ny o * p_nz p) (mono_value o s) /\ limits o s.
  Proof.
    intros Ho Et. destruct (mono_acc o Ho) as (s & d & a & u & E & Vd & Va & Vu & HL). exists s. set (M := (o_nx o * o_ny o * p_nz p)%Z) in *.
    unfold one_tile. fold M. rewrite E. cbn [bind]. unfold finish. pose proof (vec_len _ _ _ Vd) as HM. rewrite Et, andb_false_r.
    match goal with |- context [ofor 0 M ?f d] => destruct (ofor_vec f M 0 M
      (fun j n => if (n <? j)%Z then mono_value o s n else rsum (fun c => x_weight p T c * y_of s c) (used Monotone p T o n)) d HM) as (r & EF & V) end.
    - eapply vec_ext; [|exact Vd]. intros i Hi. cbv beta. destruct (Z.ltb_spec i 0); auto; lia.
    - intros i g Hi Hg. rewrite (vec_get _ _ _ _ Va), (vec_get _ _ _ _ Vu) by lia. cbn [bind].
      assert (SET : forall v, v = mono_value o s i -> exists g', oset g i v = Ok g' /\ vec g' M (fun n => if (n <? i + 1)%Z then mono_value o s n else rsum (fun c => x_weight p T c * y_of s c) (used Monotone p T o n))).
      { intros v ->. eapply vec_set; [exact Hg|lia|]. intros j Hj. destruct (Z.eqb_spec j i) as [->|NE]. - destruct (Z.ltb_spec i (i + 1)); auto; lia. - destruct (Z.ltb_spec j (i + 1)), (Z.ltb_spec j i); auto; lia. }
      change (0 =? 0)%Z with true. change (0 =? 1)%Z with false. cbv iota. rewrite missing_fill.
      destruct (p_sum p) eqn:Es.
      + destruct (reqb_spec (weight_on Monotone p T o i) 0) as [W0|W0].
        * apply SET. unfold mono_value. rewrite Es. cbv zeta. destruct (Req_EM_T _ 0); auto; contradiction.
        * exists g. split; auto. eapply vec_ext; [|exact Hg]. intros j Hj. cbv beta. destruct (Z.ltb_spec j (i + 1)), (Z.ltb_spec j i); auto; try lia. assert (j = i) by lia. subst j.
          unfold mono_value. rewrite Es. cbv zeta. destruct (Req_EM_T _ 0); auto; contradiction.
      + destruct (rlt_spec 0 (weight_on Monotone p T o i)) as [W|W].
        * rewrite (vec_get _ _ _ _ Hg) by lia. cbn [bind]. destruct (Z.ltb_spec i i); [lia|]. apply SET. unfold mono_value. rewrite Es. cbv zeta. destruct (Rlt_dec _ _); auto; contradiction.
        * apply SET. unfold mono_value. rewrite Es. cbv zeta. destruct (Rlt_dec _ _); auto. contradiction.
    - exists r. rewrite EF. cbn [bind]. split; auto. split; auto. eapply vec_ext; [|exact V]. intros i Hi. cbv beta. destruct (Z.ltb_spec i (0 + M)); auto; lia.
  Qed.
  Lemma mono_run : p_target p = false -> exists outs, do_scalar Monotone p T O = Ok outs /\ zlen outs = zlen O /\ exists s : Z -> Z -> Z -> R,
    forall q, (0 <= q < zlen O)%Z -> limits (otile_at O q) (s q) /\ zlen (nth (Z.to_nat q) outs []) = (o_nx (otile_at O q) * o_ny (otile_at O q) * p_nz p)%Z
      /\ forall k n, (0 <= k < p_nz p)%Z -> (0 <= n < o_nx (otile_at O q) * o_ny (otile_at O q))%Z ->
           out_at O outs q k n = mono_value (otile_at O q) (s q) (k * (o_nx (otile_at O q) * o_ny (otile_at O q)) + n).
  Proof.
    intros Et. destruct HW as (Hz & Hz1 & _ & HO).
    destruct (tiles_run (one_tile Monotone p T) O []) as (outs & E & F). { intros o Ho. destruct (mono_tile o Ho Et) as (s & r & ? & _). eauto. }
    exists outs. destruct (Forall2_at _ (MkOtile 0 0 [] []) [] _ _ F) as (L & HF). split; [|split; auto].
    - unfold do_scalar. destruct (Z.ltb_spec 1 (p_nz p)) as [C|C]; cbn [andb]; [|exact E]. destruct (Hz1 C) as (-> & -> & ->). exact E.
    - assert (G : forall N, (0 <= N <= zlen O)%Z -> exists s : Z -> Z -> Z -> R, forall q, (0 <= q < N)%Z -> limits (otile_at O q) (s q) /\ zlen (nth (Z.to_nat q) outs []) = (o_nx (otile_at O q) * o_ny (otile_at O q) * p_nz p)%Z
        /\ forall k n, (0 <= k < p_nz p)%Z -> (0 <= n < o_nx (otile_at O q) * o_ny (otile_at O q))%Z ->
           out_at O outs q k n = mono_value (otile_at O q) (s q) (k * (o_nx (otile_at O q) * o_ny (otile_at O q)) + n)).
      { intros N HN. destruct HN as [HN0 HN1]. revert HN1. pattern N. apply natlike_ind; auto.
        - intros _. exists (fun _ _ _ => 0). intros; lia.
        - intros m Hm IH Hle. destruct IH as (s & Hs); [lia|]. specialize (HF m ltac:(lia)). fold (otile_at O m) in HF. destruct (mono_tile (otile_at O m) (otile_in O m ltac:(lia)) Et) as (sm & r & Er & Vr & HLm).
          rewrite HF in Er. injection Er as Er. exists (fun q => if (q =? m)%Z then sm else s q). intros q Hq. destruct (Z.eqb_spec q m) as [->|NE]; [|apply Hs; lia].
          split; auto. rewrite Er. split; [apply Vr|]. intros k n Hk Hn. unfold out_at. rewrite Er. rewrite (vec_at_ _ _ _ _ Vr) by nia. reflexivity. }
      apply G. pose proof (zlen_nonneg O). lia.
  Qed.
End Mono.
