(** * Proofs about the interpolation to pressure levels: missing values and packing *)
From Coq Require Import Reals Lra Lia.
From Verif Require Import Base Loops M_Interp P_Interp M_Runoff M_Plevel Spec_Plevel P_Plevel P_Plevel2.
Open Scope Z_scope.

Lemma reqb_spec a b : reflect (a = b) (reqb a b).
Proof. unfold reqb. destruct (Req_EM_T a b); constructor; assumption. Qed.

Lemma level_of_masks k (mask : list (list R)) : (forall col, In col mask -> 1 <= k <= zlen col) ->
  ofold (fun acc col => do m <- at_ col k ; Ok (acc ++ [rlt m 0.5])) mask [] = Ok (map (fun col => rlt (lv col k) 0.5) mask).
Proof.
  intros H.
  assert (G : forall l acc, (forall col, In col l -> 1 <= k <= zlen col) ->
    ofold (fun acc col => do m <- at_ col k ; Ok (acc ++ [rlt m 0.5])) l acc = Ok (acc ++ map (fun col => rlt (lv col k) 0.5) l)).
  { induction l as [|c l IH]; intros acc Hc; cbn [ofold map]; [rewrite app_nil_r; reflexivity|].
    rewrite at_ok by (apply Hc; left; reflexivity). cbn [bind]. rewrite IH by (intros; apply Hc; right; assumption).
    rewrite <- app_assoc. reflexivity. }
  apply (G mask []). exact H.
Qed.
Definition ind (mv v : R) : R := if reqb v mv then 0%R else 1%R.
Lemma ind_lt mv col k : 1 <= k <= zlen col -> rlt (lv (map (ind mv) col) k) 0.5 = reqb (lv col k) mv.
Proof.
  intros H. replace (lv (map (ind mv) col) k) with (ind mv (lv col k)).
  - unfold ind. destruct (reqb (lv col k) mv); [destruct (rlt_spec 0 0.5)|destruct (rlt_spec 1 0.5)]; reflexivity || lra.
  - unfold lv. rewrite <- (map_nth (ind mv)). apply nth_indep. rewrite map_length. unfold zlen in H. lia.
Qed.

Lemma combine_map_kbot nlev mv k : forall data kbs, Forall2 (valid_to nlev mv) data kbs -> 1 <= k <= nlev ->
  map (fun '(b, kb) => if (b : bool) then k - 1 else kb)
    (combine (map (fun col => rlt (lv col k) 0.5) (map (map (ind mv)) data)) (map (fun kb => Z.max kb k) kbs)) =
  map (fun kb => Z.max kb (k - 1)) kbs.
Proof.
  induction 1 as [|col kb data kbs (Hl & Hb & Hv) _ IH]; intros Hk; [reflexivity|].
  cbn [map combine]. f_equal; [|apply IH; exact Hk].
  rewrite ind_lt by lia. destruct (reqb_spec (lv col k) mv) as [E|E]; specialize (Hv k Hk).
  - apply Hv in E. lia.
  - assert (~ kb < k) by tauto. lia.
Qed.
Lemma none_missing nlev mv k : forall data kbs, Forall2 (valid_to nlev mv) data kbs -> 1 <= k <= nlev ->
  existsb (fun b => b) (map (fun col => rlt (lv col k) 0.5) (map (map (ind mv)) data)) = false ->
  map (fun kb => Z.max kb k) kbs = kbs.
Proof.
  induction 1 as [|col kb data kbs (Hl & Hb & Hv) _ IH]; intros Hk H; [reflexivity|].
  cbn [map existsb] in *. apply Bool.orb_false_iff in H. destruct H as [H1 H2]. f_equal; [|apply IH; assumption].
  rewrite ind_lt in H1 by lia. destruct (reqb_spec (lv col k) mv) as [E|E]; [discriminate|]. specialize (Hv k Hk). assert (~ kb < k) by tauto. lia.
Qed.
Lemma set_up_spec nlev mv data kbs : 0 <= nlev -> Forall2 (valid_to nlev mv) data kbs ->
  set_up_input_mask nlev (Some mv) data = Ok (map (map (ind mv)) data, kbs).
Proof.
  intros Hn H. unfold set_up_input_mask. fold (ind mv).
  match goal with |- bind (ofor 0 nlev ?body ?init) _ = _ =>
    destruct (ofor_inv (fun (n : Z) (st : bool * list Z) => snd st = (if fst st then kbs else map (fun kb => Z.max kb (nlev - n)) kbs)) body 0 nlev init) as ((d & kb) & E & Hi) end.
  - lia.
  - cbn [fst snd]. replace (nlev - 0) with nlev by lia.
    clear - H. induction H as [|col kb data kbs (Hl & Hb & Hv) _ IH]; [reflexivity|]. cbn [map]. f_equal; [lia|exact IH].
  - intros n [d kb] Hnr Hi. cbn [fst snd] in Hi. destruct d.
    + exists (true, kb). split; [reflexivity|exact Hi].
    + subst kb. cbv zeta.
      rewrite level_of_masks.
      2:{ intros col Hc. apply in_map_iff in Hc. destruct Hc as (c0 & <- & Hc0). rewrite zlen_map.
          assert (zlen c0 = nlev).
          { clear - H Hc0. induction H as [|c kb data kbs (Hl & _) _ IH]; [destruct Hc0|]. destruct Hc0 as [-> |]; auto. }
          lia. }
      cbn [bind].
      destruct (existsb (fun b => b) (map (fun col => rlt (lv col (nlev - n)) 0.5) (map (map (ind mv)) data))) eqn:Ex; cbn [negb].
      * eexists; split; [reflexivity|]. cbn [fst snd].
        rewrite (combine_map_kbot nlev mv) by (assumption || lia). apply map_ext. intros; lia.
      * eexists; split; [reflexivity|]. cbn [fst snd]. apply (none_missing nlev mv _ data); assumption || lia.
  - match goal with |- bind ?x _ = _ => replace x with (Ok (d, kb)) by (symmetry; exact E) end.
    cbn [bind]. cbn [fst snd] in Hi. destruct d; subst kb; [reflexivity|].
    repeat f_equal. clear - H. induction H as [|col kb data kbs (Hl & Hb & Hv) _ IH]; [reflexivity|]. cbn [map]. f_equal; [lia|exact IH].
Qed.

(** ** Packing *)
Lemma Int_part_unique r z : (r - 1 < IZR z <= r)%R -> z = Int_part r.
Proof.
  intros [H1 H2]. unfold Int_part. rewrite <- (tech_up r (z + 1)); [lia| |]; rewrite plus_IZR; lra.
Qed.
Lemma nint_IZR n : nint (IZR n) = n.
Proof.
  unfold nint. destruct (rlt_spec (IZR n) 0).
  - rewrite <- (Int_part_unique (- IZR n + 1 / 2) (- n)); [lia|]. rewrite opp_IZR. lra.
  - symmetry. apply Int_part_unique. lra.
Qed.
Lemma nint_near x : (Rabs (IZR (nint x) - x) <= 1 / 2)%R.
Proof.
  unfold nint. destruct (rlt_spec x 0).
  - rewrite opp_IZR. destruct (base_Int_part (- x + 1 / 2)). apply Rabs_le. lra.
  - destruct (base_Int_part (x + 1 / 2)). apply Rabs_le. lra.
Qed.

Lemma copy_field_id a v : (a_scale a <> Some 0%R) ->
  (a_scale a = None \/ a_offset a = None \/ a_missing a = Some v \/ exists n, v = IZR n) ->
  copy_field (field_info a None) v = Ok v.
Proof.
  intros Hs Hv. unfold copy_field, field_info.
  destruct a as [[s|] [o|] m fl]; cbn [a_scale a_offset a_missing a_fill] in *;
    try (destruct m, fl; cbn; reflexivity).
  assert (Hs0 : (s <> 0)%R) by (intros ->; apply Hs; reflexivity).
  assert (P : forall mv, (v = mv \/ exists n, v = IZR n) ->
    pack (Field true s o true mv (mv * s + o) true mv (mv * s + o)) (unpack (Field true s o true mv (mv * s + o) true mv (mv * s + o)) v) = Ok v).
  { intros mv H. unfold pack, unpack. cbn [f_do_pack f_do_miss_in f_missval_in f_unpkd_in f_do_miss_out f_unpkd_out f_missval_out f_scale f_offset andb].
    destruct (reqb_spec v mv) as [-> |Hne].
    - destruct (reqb_spec (mv * s + o) (mv * s + o)); [reflexivity|contradiction].
    - destruct H as [|[n ->]]; [contradiction|].
      destruct (reqb_spec (IZR n * s + o) (mv * s + o)) as [E|E].
      + exfalso. apply Hne. apply (Rmult_eq_reg_r s); [lra|exact Hs0].
      + rewrite fdiv_ok by exact Hs0. cbn [bind]. replace ((IZR n * s + o - o) / s)%R with (IZR n) by (field; exact Hs0).
        rewrite nint_IZR. reflexivity. }
  assert (Q : (exists n, v = IZR n) ->
    pack (Field true s o false 0 0 false 0 0) (unpack (Field true s o false 0 0 false 0 0) v) = Ok v).
  { intros [n ->]. unfold pack, unpack. cbn [f_do_pack f_do_miss_in f_do_miss_out f_scale f_offset andb].
    rewrite fdiv_ok by exact Hs0. cbn [bind]. replace ((IZR n * s + o - o) / s)%R with (IZR n) by (field; exact Hs0).
    rewrite nint_IZR. reflexivity. }
  destruct Hv as [|[|[Hv|Hv]]]; try discriminate.
  - subst m. destruct fl; cbn [andb]; apply P; left; reflexivity.
  - destruct m as [m|]; [destruct fl; cbn [andb]; apply P; right; exact Hv|].
    destruct fl as [fl|]; cbn [andb]; [apply P; right; exact Hv|apply Q; exact Hv].
Qed.

Lemma pack_near a d v w s o : a_scale a = Some s -> a_offset a = Some o -> (s <> 0)%R ->
  v <> f_unpkd_out (field_info a d) -> pack (field_info a d) v = Ok w ->
  (exists n, w = IZR n) /\ (Rabs (w * s + o - v) <= Rabs s / 2)%R.
Proof.
  intros Es Eo Hs Hv. unfold pack.
  assert (E1 : f_do_pack (field_info a d) = true) by (unfold field_info; rewrite Es, Eo; destruct (a_missing a), (a_fill a); reflexivity).
  assert (E2 : f_scale (field_info a d) = s) by (unfold field_info; rewrite Es, Eo; destruct (a_missing a), (a_fill a); reflexivity).
  assert (E3 : f_offset (field_info a d) = o) by (unfold field_info; rewrite Es, Eo; destruct (a_missing a), (a_fill a); reflexivity).
  rewrite E1, E2, E3. destruct (reqb_spec v (f_unpkd_out (field_info a d))); [contradiction|].
  rewrite Bool.andb_false_r. rewrite fdiv_ok by exact Hs. cbn [bind]. intros [= <-].
  split; [eexists; reflexivity|].
  pose proof (nint_near ((v - o) / s)) as H.
  replace (IZR (nint ((v - o) / s)) * s + o - v)%R with ((IZR (nint ((v - o) / s)) - (v - o) / s) * s)%R by (field; exact Hs).
  rewrite Rabs_mult. pose proof (Rabs_pos s). nra.
Qed.

(** ** Masking *)
Lemma info_missing a d : (a_missing a <> None \/ a_fill a <> None) -> (f_do_miss_in (field_info a d) = true /\ f_do_miss_out (field_info a d) = true)%type.
Proof. intros H. unfold field_info. destruct (a_missing a), (a_fill a), (a_scale a), (a_offset a); cbn; intuition congruence. Qed.
Lemma info_out a d : (a_missing a <> None \/ a_fill a <> None) ->
  pack (field_info a d) (f_unpkd_out (field_info a d)) = Ok (f_missval_out (field_info a d)).
Proof.
  intros H. unfold pack. destruct (info_missing a d H) as [_ ->]. cbn [andb].
  destruct (reqb_spec (f_unpkd_out (field_info a d)) (f_unpkd_out (field_info a d))); [|contradiction].
  destruct (f_do_pack (field_info a d)) eqn:E; [reflexivity|].
  f_equal. unfold field_info in *. destruct (a_missing a), (a_fill a), (a_scale a), (a_offset a); cbn in *; try discriminate; reflexivity.
Qed.
Lemma zlen_unpack f (data : list R) nlev : zlen data = nlev -> zlen (map (unpack f) data) = nlev.
Proof. rewrite zlen_map. auto. Qed.

Lemma masked_spec nlev pf kbot data p a d : good_full nlev pf -> (0 < p)%R -> 2 <= kbot <= nlev -> zlen data = nlev ->
  (a_missing a <> None \/ a_fill a <> None) -> (a_scale a <> Some 0%R) ->
  exists c mo, control_of (map ln pf) kbot (ln p) = Ok c /\ missing_out a d true = Some mo /\
    ((lv pf kbot < p)%R -> interp_field true (field_info a d) c data = Ok mo) /\
    ((p <= lv pf kbot)%R -> interp_field true (field_info a d) c data = interp_field false (field_info a d) c data).
Proof.
  intros G Hp Hb Hd Hm Hs.
  destruct (column_spec nlev pf kbot (map (unpack (field_info a d)) data) p G Hp Hb (zlen_unpack _ _ _ Hd)) as (c & v & E1 & E2 & Hv & Hmask & _).
  exists c, (f_missval_out (field_info a d)). split; [exact E1|]. split; [reflexivity|].
  unfold interp_field. rewrite E2. cbn [bind]. unfold mask_data.
  destruct (info_missing a d Hm) as [_ ->]. cbn [andb].
  split; intros H.
  - apply Hmask in H. rewrite H. apply info_out. exact Hm.
  - destruct (c_mask c); [|reflexivity]. assert (lv pf kbot < p)%R by (apply Hmask; reflexivity). lra.
Qed.
