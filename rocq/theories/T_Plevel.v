(** * C75-C79: interpolation to pressure levels (plevel) *)
From Coq Require Import Reals Lra Lia.
From Verif Require Import Base Loops M_Interp P_Interp M_Runoff M_Plevel Spec_Plevel P_Plevel P_Plevel2 P_Plevel3 P_Plevel4 P_Plevel5 P_Plevel6.
Open Scope Z_scope.

(** Computes lv of a literal column *)
Ltac lvs := repeat match goal with |- context [lv ?l ?k] =>
  let x := eval lazy beta iota zeta delta [lv nth Z.to_nat Z.sub Z.add Z.opp Z.pos_sub Pos.to_nat Pos.iter_op Nat.add Pos.pred_double Z.succ_double Z.pred_double Z.double Pos.add Pos.succ Pos.add_carry] in (lv l k) in
  change (lv l k) with x end.

(** ** C75 *)

(** The pressures of the levels lie inside the layers.  The value at an output pressure lies, between two
    levels, on the line through both in the logarithm of pressure; outside the levels the extrapolation
    is limited; the mask says that the pressure is below the last level with data. *)
Theorem C75_interpolation nlev ph kbot data p : good_half nlev ph -> (0 < p)%R -> 2 <= kbot <= nlev -> zlen data = nlev ->
  exists pf v m, compute_pres_full nlev ph = Ok pf /\ inside nlev ph pf /\
    interp_column nlev ph kbot data p = Ok (v, m) /\
    interpolated pf data kbot p v /\ (m = true <-> (lv pf kbot < p)%R).
Proof. apply interp_column_spec. Qed.

(** At the pressure of a level the value is the one of the level. *)
Theorem C75_exact_at_levels nlev ph kbot data pf k : good_half nlev ph -> 2 <= kbot <= nlev -> zlen data = nlev ->
  compute_pres_full nlev ph = Ok pf -> 1 <= k <= kbot ->
  interp_column nlev ph kbot data (lv pf k) = Ok (lv data k, false).
Proof.
  intros H Hb Hd Ep Hk.
  pose proof (pf_list_inside nlev ph H) as Hi. rewrite compute_pres_full_ok in Ep by exact H. injection Ep as Ep.
  rewrite Ep in Hi. pose proof (inside_good nlev ph pf H Hi) as G. pose proof G as (_ & Hpos & _).
  destruct (interp_column_spec nlev ph kbot data (lv pf k) H ltac:(apply Hpos; lia) Hb Hd) as (pf' & v & m & E & _ & Ev & (Hv & _) & Hm).
  rewrite compute_pres_full_ok in E by exact H. assert (pf' = pf) by congruence. subst pf'. rewrite Ev.
  assert (Em : m = false).
  { destruct m; [|reflexivity]. assert (lv pf kbot < lv pf k)%R by (apply Hm; reflexivity).
    pose proof (good_full_le nlev pf k kbot G ltac:(lia) ltac:(lia) ltac:(lia)). lra. }
  subst m. f_equal. f_equal. destruct (Z.eq_dec k kbot) as [-> |Hne].
  - assert (L : (lv pf (kbot - 1) <= lv pf kbot)%R) by (apply (good_full_le nlev); [exact G|lia|lia|lia]).
    specialize (Hv (kbot - 1) ltac:(lia)). replace (kbot - 1 + 1) with kbot in Hv by lia. specialize (Hv ltac:(lra)).
    apply (on_line_unique nlev pf data (kbot - 1) (lv pf kbot) v _ G ltac:(lia) Hv). unfold on_line.
    replace (kbot - 1 + 1) with kbot by lia. ring.
  - assert (L : (lv pf k <= lv pf (k + 1))%R) by (apply (good_full_le nlev); [exact G|lia|lia|lia]).
    specialize (Hv k ltac:(lia) ltac:(lra)).
    apply (on_line_unique nlev pf data k (lv pf k) v _ G ltac:(lia) Hv). unfold on_line. ring.
Qed.

(** Between the first and the last level with data no new extremes appear, and what is linear in the
    logarithm of pressure is reproduced. *)
Theorem C75_no_new_extremes nlev ph kbot data p pf : good_half nlev ph -> 2 <= kbot <= nlev -> zlen data = nlev ->
  compute_pres_full nlev ph = Ok pf -> (lv pf 1 <= p <= lv pf kbot)%R ->
  exists k v, 1 <= k < kbot /\ (lv pf k <= p <= lv pf (k + 1))%R /\ interp_column nlev ph kbot data p = Ok (v, false) /\
    (Rmin (lv data k) (lv data (k + 1)) <= v <= Rmax (lv data k) (lv data (k + 1)))%R.
Proof.
  intros H Hb Hd Ep Hp.
  pose proof (pf_list_inside nlev ph H) as Hi. rewrite compute_pres_full_ok in Ep by exact H. injection Ep as Ep.
  rewrite Ep in Hi. pose proof (inside_good nlev ph pf H Hi) as G. pose proof G as (_ & Hpos & _).
  assert (P0 : (0 < p)%R) by (pose proof (Hpos 1 ltac:(lia)); lra).
  destruct (interp_column_spec nlev ph kbot data p H P0 Hb Hd) as (pf' & v & m & E & _ & Ev & (Hv & _) & Hm).
  rewrite compute_pres_full_ok in E by exact H. assert (pf' = pf) by congruence. subst pf'.
  destruct (level_above nlev pf kbot p G Hb Hp) as (k & Hk & Hpk).
  exists k, v. split; [exact Hk|]. split; [exact Hpk|]. split.
  - rewrite Ev. f_equal. f_equal. destruct m; [|reflexivity]. assert (lv pf kbot < p)%R by (apply Hm; reflexivity). lra.
  - apply (on_line_between nlev pf data k p v G ltac:(lia) Hpk). apply Hv; assumption.
Qed.
Theorem C75_log_linear_exact nlev ph kbot data p pf a b : good_half nlev ph -> 2 <= kbot <= nlev -> zlen data = nlev ->
  compute_pres_full nlev ph = Ok pf -> (lv pf 1 <= p <= lv pf kbot)%R ->
  (forall k, 1 <= k <= kbot -> lv data k = (a + b * ln (lv pf k))%R) ->
  interp_column nlev ph kbot data p = Ok ((a + b * ln p)%R, false).
Proof.
  intros H Hb Hd Ep Hp Hlin.
  pose proof (pf_list_inside nlev ph H) as Hi. rewrite compute_pres_full_ok in Ep by exact H. injection Ep as Ep.
  rewrite Ep in Hi. pose proof (inside_good nlev ph pf H Hi) as G. pose proof G as (_ & Hpos & _).
  assert (P0 : (0 < p)%R) by (pose proof (Hpos 1 ltac:(lia)); lra).
  destruct (interp_column_spec nlev ph kbot data p H P0 Hb Hd) as (pf' & v & m & E & _ & Ev & (Hv & _) & Hm).
  rewrite compute_pres_full_ok in E by exact H. assert (pf' = pf) by congruence. subst pf'.
  destruct (level_above nlev pf kbot p G Hb Hp) as (k & Hk & Hpk).
  rewrite Ev. f_equal. f_equal.
  - apply (on_line_unique nlev pf data k p v _ G ltac:(lia)); [apply Hv; assumption|].
    unfold on_line. rewrite !Hlin by lia. ring.
  - destruct m; [|reflexivity]. assert (lv pf kbot < p)%R by (apply Hm; reflexivity). lra.
Qed.

Definition ph2 : list R := [10000; 50000; 100000]%R.
Lemma good_ph2 : good_half 2 ph2.
Proof.
  split; [lia|]. split; [reflexivity|]. split; [change (lv ph2 1) with 10000%R; lra|].
  intros k Hk. assert (k = 1 \/ k = 2) as [-> | ->] by lia.
  - change (10000 < 50000)%R. lra.
  - change (50000 < 100000)%R. lra.
Qed.
Example C75_nonvacuous : good_half 2 ph2 /\ (0 < 30000)%R /\ 2 <= 2 <= 2 /\ zlen [210; 280]%R = 2.
Proof. split; [apply good_ph2|]. split; [lra|]. split; [lia|reflexivity]. Qed.

(** A column with data on its first level only (all lower levels are missing) makes the code read outside
    the array of levels. *)
Theorem C75_one_level_refuted : exists nlev ph col mv mask kbot,
  good_half nlev ph /\ valid_to nlev mv col 1 /\ set_up_input_mask nlev (Some mv) [col] = Ok (mask, [kbot]) /\
  forall p data, (0 < p)%R -> interp_column nlev ph kbot data p = UB.
Proof.
  assert (V : valid_to 2 (-1)%R [250; -1]%R 1).
  { split; [reflexivity|]. split; [lia|]. intros k Hk. assert (k = 1 \/ k = 2) as [-> | ->] by lia; cbn.
    - split; [lra|lia].
    - split; [lia|reflexivity]. }
  exists 2, ph2, [250; -1]%R, (-1)%R. eexists _, 1. split; [apply good_ph2|]. split; [exact V|]. split.
  - rewrite (set_up_spec 2 (-1) [[250; -1]%R] [1]); [reflexivity|lia|]. constructor; [exact V|constructor].
  - intros p data Hp. apply few_levels; [apply good_ph2|exact Hp|lia].
Qed.

(** ** C76 *)

(** When in every column the missing values are those below some level, that level is found for each column. *)
Theorem C76_levels_with_data nlev mv data kbs : 0 <= nlev -> Forall2 (valid_to nlev mv) data kbs ->
  exists mask, set_up_input_mask nlev (Some mv) data = Ok (mask, kbs) /\
    Forall2 (fun m col => zlen m = zlen col /\ forall k, 1 <= k <= zlen col -> (lv m k = 0%R <-> lv col k = mv) /\ (lv m k = 1%R <-> lv col k <> mv)) mask data.
Proof.
  intros Hn H. eexists. split; [apply set_up_spec; assumption|]. clear.
  induction data as [|col data IH]; cbn [map]; constructor; [|exact IH].
  split; [apply zlen_map|]. intros k Hk.
  replace (lv (map (ind mv) col) k) with (ind mv (lv col k)).
  - unfold ind. destruct (reqb_spec (lv col k) mv); split; split; intros; try contradiction; try reflexivity; try assumption; try lra.
  - unfold lv. rewrite <- (map_nth (ind mv)). apply nth_indep. rewrite map_length. unfold zlen in Hk. lia.
Qed.

(** A field with a missing value gets, below the last level with data, the missing value of the output field;
    elsewhere masking changes nothing. *)
Theorem C76_masked nlev ph pf kbot data p a d : good_half nlev ph -> compute_pres_full nlev ph = Ok pf ->
  (0 < p)%R -> 2 <= kbot <= nlev -> zlen data = nlev ->
  (a_missing a <> None \/ a_fill a <> None) -> (a_scale a <> Some 0%R) ->
  exists c mo, control_of (map ln pf) kbot (ln p) = Ok c /\ missing_out a d true = Some mo /\
    ((lv pf kbot < p)%R -> interp_field true (field_info a d) c data = Ok mo) /\
    ((p <= lv pf kbot)%R -> interp_field true (field_info a d) c data = interp_field false (field_info a d) c data).
Proof.
  intros H Ep. apply masked_spec. pose proof (pf_list_inside nlev ph H) as Hi. rewrite compute_pres_full_ok in Ep by exact H. injection Ep as Ep.
  rewrite Ep in Hi. exact (inside_good nlev ph pf H Hi).
Qed.
(** Without masking a field that is not packed gets the interpolated value at every pressure. *)
Theorem C76_not_masked nlev ph pf kbot data p a d : good_half nlev ph -> compute_pres_full nlev ph = Ok pf ->
  (0 < p)%R -> 2 <= kbot <= nlev -> zlen data = nlev -> a_scale a = None \/ a_offset a = None ->
  exists c v, control_of (map ln pf) kbot (ln p) = Ok c /\ interp_field false (field_info a d) c data = Ok v /\ interpolated pf data kbot p v.
Proof.
  intros H Ep Hp Hb Hd Hu. pose proof (pf_list_inside nlev ph H) as Hi. rewrite compute_pres_full_ok in Ep by exact H. injection Ep as Ep. rewrite Ep in Hi. pose proof (inside_good nlev ph pf H Hi) as G.
  assert (P : f_do_pack (field_info a d) = false) by (unfold field_info; destruct Hu as [-> | ->]; destruct (a_missing a), (a_fill a), (a_scale a); reflexivity).
  assert (U : map (unpack (field_info a d)) data = data). { rewrite <- (map_id data) at 2. apply map_ext. intros v. unfold unpack. now rewrite P. }
  destruct (column_spec nlev pf kbot data p G Hp Hb Hd) as (c & v & E1 & E2 & Hv & _).
  exists c, v. split; [exact E1|]. split; [|exact Hv]. unfold interp_field. rewrite U, E2. cbn [bind]. unfold mask_data, pack. rewrite P, Bool.andb_false_r. reflexivity.
Qed.

Example C76_nonvacuous : Forall2 (valid_to 2 (-1)%R) [[250; -1]; [250; 260]]%R [1; 2] /\ a_missing (Attrs None None (Some (-1)%R) None) <> None.
Proof.
  split; [|discriminate].
  constructor; [|constructor; [|constructor]].
  - split; [reflexivity|]. split; [lia|]. intros k Hk. assert (k = 1 \/ k = 2) as [-> | ->] by lia; lvs; (split; intros; [try lia; exfalso; lra|try reflexivity; exfalso; lia]).
  - split; [reflexivity|]. split; [lia|]. intros k Hk. assert (k = 1 \/ k = 2) as [-> | ->] by lia; lvs; (split; intros; [try lia; exfalso; lra|try reflexivity; exfalso; lia]).
Qed.

(** A field without a missing value gets the missing_value 0, is not masked, and so its zeros become missing. *)
Theorem C76_no_missing_value_refuted : exists a, a_missing a = None /\ a_fill a = None /\ missing_out a None true = Some 0%R /\
  forall nlev ph pf kbot p data, good_half nlev ph -> compute_pres_full nlev ph = Ok pf -> (0 < p)%R -> 2 <= kbot <= nlev ->
    zlen data = nlev -> (forall k, 1 <= k <= nlev -> lv data k = 0%R) ->
    exists c, control_of (map ln pf) kbot (ln p) = Ok c /\ interp_field true (field_info a None) c data = Ok 0%R.
Proof.
  exists (Attrs None None None None). repeat split; try reflexivity.
  intros nlev ph pf kbot p data H Ep Hp Hb Hd H0.
  pose proof (pf_list_inside nlev ph H) as Hi. rewrite compute_pres_full_ok in Ep by exact H. injection Ep as Ep.
  rewrite Ep in Hi. pose proof (inside_good nlev ph pf H Hi) as G.
  destruct (column_spec nlev pf kbot data p G Hp Hb Hd) as (c & v & E1 & E2 & Hv & _).
  exists c. split; [exact E1|]. unfold interp_field.
  replace (map (unpack (field_info (Attrs None None None None) None)) data) with data.
  2: { symmetry. etransitivity; [|apply map_id]. apply map_ext. reflexivity. }
  rewrite E2. cbn [bind].
  assert (Ev : v = 0%R) by (apply (interpolated_const nlev pf data kbot p); auto; intros; apply H0; lia).
  rewrite Ev. reflexivity.
Qed.

(** With the default missing value for the output, a field without levels is copied with its old missing
    values while its missing_value becomes the default. *)
Theorem C76_copied_missing_refuted : exists (a : attrs) (m d : R), a_missing a = Some m /\ m <> d /\
  missing_out a (Some d) false = Some d /\ copy_field (field_info a (Some d)) m = Ok m.
Proof. exists (Attrs None None (Some (-1)%R) None), (-1)%R, 2%R. repeat split; try reflexivity. lra. Qed.

(** A field on half levels is masked between the last but one half level and the surface although both hold data. *)
Theorem C76_half_levels_refuted : exists nlev ph data mask kbot p v,
  good_half nlev ph /\ (0 < lv ph 1)%R /\ zlen data = nlev + 1 /\ set_up_input_mask nlev None [map (fun _ => 250%R) (zseq 0 nlev)] = Ok (mask, [kbot]) /\
  (lv ph nlev < p < lv ph (nlev + 1))%R /\ interp_half ph kbot data p = Ok (v, true).
Proof.
  exists 2, ph2, [210; 280; 290]%R. eexists _, 2, 60000%R.
  assert (G : good_full 3 ph2).
  { split; [reflexivity|]. split.
    - intros k Hk. assert (k = 1 \/ k = 2 \/ k = 3) as [-> |[-> | ->]] by lia; unfold ph2; lvs; lra.
    - intros k Hk. assert (k = 1 \/ k = 2) as [-> | ->] by lia; unfold ph2; lvs; lra. }
  destruct (column_spec 3 ph2 2 [210; 280; 290]%R 60000 G ltac:(lra) ltac:(lia) eq_refl) as (c & v & E1 & E2 & _ & Hm & _).
  exists v. split; [apply good_ph2|]. split; [unfold ph2; lvs; lra|]. split; [reflexivity|]. split; [reflexivity|]. split; [unfold ph2; lvs; lra|].
  unfold interp_half. rewrite (good_full_logs 3) by exact G. cbn [bind]. rewrite flog_ok by lra. cbn [bind].
  rewrite E1. cbn [bind]. rewrite E2. cbn [bind]. f_equal. f_equal. apply Hm. unfold ph2; lvs; lra.
Qed.

(** A missing value above levels that hold data in every column is used like data. *)
Theorem C76_hole_refuted : exists nlev ph col mv mask kbot p v,
  good_half nlev ph /\ lv col 1 = mv /\ set_up_input_mask nlev (Some mv) [col] = Ok (mask, [kbot]) /\ 2 <= kbot <= nlev /\
  interp_column nlev ph kbot col p = Ok (v, false) /\ lv col 2 <> mv /\ v = ((mv + lv col 2) / 2)%R.
Proof.
  set (pf := pf_list 2 ph2). pose proof (pf_list_inside 2 ph2 good_ph2) as Hi. pose proof (inside_good 2 ph2 _ good_ph2 Hi) as G. fold pf in Hi, G.
  pose proof G as (Hl & Hpos & Hmon).
  assert (L : (ln (lv pf 1) < ln (lv pf 2))%R) by (apply ln_increasing; [apply Hpos; lia|apply (Hmon 1); lia]).
  set (p := exp ((ln (lv pf 1) + ln (lv pf 2)) / 2)).
  assert (Lp : ln p = ((ln (lv pf 1) + ln (lv pf 2)) / 2)%R) by (unfold p; apply ln_exp).
  assert (P0 : (0 < p)%R) by apply exp_pos.
  assert (P1 : (lv pf 1 <= p)%R) by (apply Rlt_le, ln_lt_inv; [apply Hpos; lia|exact P0|lra]).
  assert (P2 : (p <= lv pf 2)%R) by (apply Rlt_le, ln_lt_inv; [exact P0|apply Hpos; lia|lra]).
  destruct (interp_column_spec 2 ph2 2 [-1; 1]%R p good_ph2 P0 ltac:(lia) eq_refl) as (pf' & v & m & E & _ & Ev & (Hv & _) & Hm).
  rewrite compute_pres_full_ok in E by apply good_ph2. fold pf in E. assert (pf' = pf) by congruence. subst pf'.
  specialize (Hv 1 ltac:(lia) ltac:(replace (1 + 1) with 2 by lia; lra)). unfold on_line in Hv. change (1 + 1) with 2 in Hv.
  change (lv [-1; 1]%R 1) with (-1)%R in Hv. change (lv [-1; 1]%R 2) with 1%R in Hv. rewrite Lp in Hv.
  assert (V0 : v = 0%R) by (apply (Rmult_eq_reg_r (ln (lv pf 2) - ln (lv pf 1))); lra).
  exists 2, ph2, [-1; 1]%R, (-1)%R. eexists _, 2, p, v. split; [apply good_ph2|]. split; [reflexivity|]. split.
  { unfold set_up_input_mask. cbn. destruct (reqb_spec (-1) (-1)); [|lra]. destruct (reqb_spec 1 (-1)); [lra|].
    cbn. change (zseq_nat 0 (Pos.to_nat 2)) with [0; 1]. cbn. change (at_ [0%R; 1%R] 2) with (Ok 1%R). cbn [bind]. destruct (rlt_spec 1 0.5); [lra|]. cbn. reflexivity. }
  split; [lia|]. split; [|lvs; repeat split; lra].
  rewrite Ev. f_equal. f_equal. destruct m; [|reflexivity]. assert (lv pf 2 < p)%R by (apply Hm; reflexivity). lra.
Qed.

(** ** C77 *)

(** The heights of the levels are in hydrostatic balance, and increase upwards where the virtual temperature is positive. *)
Theorem C77_heights nlev flag zsurf temp sphum ph pf mask :
  good_half nlev ph -> inside nlev ph pf -> zlen temp = nlev -> zlen sphum = nlev -> zlen mask = nlev ->
  (flag = true \/ 0 < lv ph 1)%R -> (forall k, 1 <= k <= nlev -> lv mask k = 1%R) ->
  exists z, compute_height nlev flag zsurf temp sphum pf ph mask = Ok z /\ hydrostatic nlev zsurf temp sphum ph pf z /\
    ((forall k, 1 <= k <= nlev -> (0 < virtual (lv temp k) (lv sphum k))%R) ->
     (zsurf < lv z nlev)%R /\ forall k, 1 <= k < nlev -> (lv z (k + 1) < lv z k)%R).
Proof.
  intros H Hi Ht Hq Hm Hf Hk. destruct (height_spec nlev flag zsurf temp sphum ph pf mask H Hi Ht Hq Hm Hf Hk) as (z & E & Hz).
  exists z. split; [exact E|]. split; [exact Hz|]. intros T. exact (heights_increase nlev zsurf temp sphum ph pf z H Hi Hz T).
Qed.
(** The flag is set when the pressure at the top of some column is zero: then no logarithm of zero is taken. *)
Theorem C77_flag cols nlev ph : Forall (good_half nlev) cols -> In ph cols -> zero_top cols = true \/ (0 < lv ph 1)%R.
Proof.
  intros H Hin. destruct (Rlt_dec 0 (lv ph 1)) as [L|L]; [right; exact L|left].
  unfold zero_top. apply existsb_exists. exists ph. split; [exact Hin|].
  rewrite Forall_forall in H. destruct (H ph Hin) as (Hn & Hl & _).
  destruct ph as [|p ph]; [unfold zlen in Hl; cbn in Hl; lia|].
  destruct (rle_spec p 0); [reflexivity|]. exfalso. apply L. unfold lv. cbn. lra.
Qed.
Example C77_nonvacuous : exists pf, inside 2 ph2 pf /\ good_half 2 ph2 /\ (0 < virtual 280 0.01)%R.
Proof. exists (pf_list 2 ph2). split; [apply pf_list_inside, good_ph2|]. split; [apply good_ph2|unfold virtual; lra]. Qed.

(** At an output pressure not below the last level: temperature and humidity are interpolated, and the height is in
    hydrostatic balance with the level below. *)
Theorem C77_height_out nlev flag zsurf temp sphum mask ph kbot p extrap :
  good_half nlev ph -> zlen temp = nlev -> zlen sphum = nlev -> zlen mask = nlev ->
  (flag = true \/ 0 < lv ph 1)%R -> (forall k, 1 <= k <= nlev -> lv mask k = 1%R) ->
  2 <= kbot <= nlev -> (0 < p)%R ->
  exists pf z, compute_pres_full nlev ph = Ok pf /\ inside nlev ph pf /\ hydrostatic nlev zsurf temp sphum ph pf z /\
    levels_of nlev flag zsurf temp sphum mask ph = Ok (Levels pf (map ln pf) z) /\
    ((p <= lv pf kbot)%R -> exists c t q h k,
       column_out extrap kbot (Levels pf (map ln pf) z) temp sphum p = Ok (c, t, q, h) /\ c_mask c = false /\
       interpolated pf temp kbot p t /\ interpolated pf sphum kbot p q /\
       2 <= k <= kbot /\ (p <= lv pf k)%R /\ (forall j, 2 <= j < k -> (lv pf j < p)%R) /\
       (grav * (h - lv z k) = Rd * ((virtual (lv temp k) (lv sphum k) + virtual t q) / 2) * (ln (lv pf k) - ln p))%R).
Proof. apply column_out_spec. Qed.

(** For a dry atmosphere of one temperature the heights are exact. *)
Theorem C77_isothermal nlev flag zsurf temp sphum mask ph T kbot p extrap pf :
  good_half nlev ph -> zlen temp = nlev -> zlen sphum = nlev -> zlen mask = nlev ->
  (flag = true \/ 0 < lv ph 1)%R -> (forall k, 1 <= k <= nlev -> lv mask k = 1%R) ->
  2 <= kbot <= nlev -> (0 < p)%R -> (forall k, 1 <= k <= nlev -> lv temp k = T /\ lv sphum k = 0%R) ->
  compute_pres_full nlev ph = Ok pf -> (p <= lv pf kbot)%R ->
  exists v c h, levels_of nlev flag zsurf temp sphum mask ph = Ok v /\
    column_out extrap kbot v temp sphum p = Ok (c, T, 0%R, h) /\
    (grav * (h - zsurf) = Rd * T * (ln (lv ph (nlev + 1)) - ln p))%R.
Proof.
  intros H Ht Hq Hm Hf Hmask Hb Hp Hc Ep Hle.
  destruct (column_out_spec nlev flag zsurf temp sphum mask ph kbot p extrap H Ht Hq Hm Hf Hmask Hb Hp) as (pf' & z & E & Hi & Hz & El & Ho).
  assert (pf' = pf) by congruence. subst pf'. destruct (Ho Hle) as (c & t & q & h & k & Ec & _ & It & Iq & Hk & _ & _ & Hh).
  pose proof (inside_good nlev ph pf H Hi) as G.
  assert (t = T) by (apply (interpolated_const nlev pf temp kbot p); auto; intros; apply Hc; lia).
  assert (q = 0%R) by (apply (interpolated_const nlev pf sphum kbot p); auto; intros; apply Hc; lia). subst t q.
  eexists _, c, h. split; [exact El|]. split; [exact Ec|].
  pose proof (isothermal_levels nlev zsurf temp sphum ph pf z T ltac:(lia) Hz Hc k ltac:(lia)) as Hl.
  destruct (Hc k ltac:(lia)) as [Ek Eq]. rewrite Ek, Eq in Hh. unfold virtual in Hh. lra.
Qed.

(** Below the last level, when values are not masked, the temperature follows the lapse rate down from the
    level above the last one. *)
Theorem C77_extrapolated_temperature nlev ph pf kbot temp p t0 : good_half nlev ph -> compute_pres_full nlev ph = Ok pf -> 2 <= kbot <= nlev -> zlen temp = nlev ->
  (lv pf kbot < p)%R -> (lapse * (Rd / grav) * (ln p - ln (lv pf (kbot - 1))) < 2)%R -> (0 < lv temp (kbot - 1))%R ->
  exists c t, control_of (map ln pf) kbot (ln p) = Ok c /\
    temp_extrap c temp (ln p) (map ln pf) t0 = Ok t /\ (lv temp (kbot - 1) < t)%R /\
    (t - lv temp (kbot - 1) = lapse * (Rd / grav * ((lv temp (kbot - 1) + t) / 2) * (ln p - ln (lv pf (kbot - 1)))))%R.
Proof.
  intros H Ep Hb Ht Hp. pose proof (pf_list_inside nlev ph H) as Hi. rewrite compute_pres_full_ok in Ep by exact H. injection Ep as Ep.
  rewrite Ep in Hi. pose proof (inside_good nlev ph pf H Hi) as G. pose proof G as (_ & Hpos & _).
  apply (extrap_temperature nlev); auto. pose proof (Hpos kbot ltac:(lia)). lra.
Qed.

(** That level is not the lowest: the temperature jumps at the last level.  In a column of one temperature it is, at any
    pressure below the last level, higher by at least a fixed amount. *)
Theorem C77_continuous_refuted : exists nlev ph pf kbot temp T e, good_half nlev ph /\ compute_pres_full nlev ph = Ok pf /\
  2 <= kbot <= nlev /\ zlen temp = nlev /\ (forall k, 1 <= k <= nlev -> lv temp k = T) /\ (0 < e)%R /\
  forall p t0 c t, (lv pf kbot < p)%R -> (lapse * (Rd / grav) * (ln p - ln (lv pf (kbot - 1))) < 2)%R ->
    control_of (map ln pf) kbot (ln p) = Ok c -> temp_extrap c temp (ln p) (map ln pf) t0 = Ok t -> (T + e <= t)%R.
Proof.
  pose proof good_ph2 as H. set (pf := pf_list 2 ph2). pose proof (pf_list_inside 2 ph2 H) as Hi. pose proof (inside_good 2 ph2 _ H Hi) as G. fold pf in Hi, G.
  pose proof G as (_ & Hpos & Hmon).
  assert (L : (ln (lv pf 1) < ln (lv pf 2))%R) by (apply ln_increasing; [apply Hpos; lia|apply (Hmon 1); lia]).
  set (D := (ln (lv pf 2) - ln (lv pf 1))%R).
  exists 2, ph2, pf, 2, [280; 280]%R, 280%R, (lapse * (Rd / grav) * 280 * D)%R.
  split; [exact H|]. split; [apply compute_pres_full_ok; exact H|]. split; [lia|]. split; [reflexivity|].
  split; [intros k Hk; assert (k = 1 \/ k = 2) as [-> | ->] by lia; reflexivity|].
  split; [unfold lapse, Rd, grav, D; lra|].
  intros p t0 c t Hp Hd Ec Et.
  assert (P0 : (0 < p)%R) by (pose proof (Hpos 2 ltac:(lia)); lra).
  destruct (extrap_temperature 2 pf 2 [280; 280]%R p t0 G P0 ltac:(lia) eq_refl Hp Hd) as (c' & t' & Ec' & Et' & Hlt & Eq).
  { change (0 < 280)%R. lra. }
  assert (c' = c) by congruence. subst c'. assert (t' = t) by congruence. subst t'.
  change (lv [280; 280]%R (2 - 1)) with 280%R in *. change (2 - 1) with 1 in *.
  assert (LP : (ln (lv pf 2) < ln p)%R) by (apply ln_increasing; [apply Hpos; lia|exact Hp]).
  set (X := (ln p - ln (lv pf 1))%R) in *. assert (HX : (D < X)%R) by (unfold D, X; lra). assert (HD : (0 < D)%R) by (unfold D; lra).
  clearbody X D. unfold lapse, Rd, grav in *. nra.
Qed.

(** Below the last level the humidity keeps the relative humidity of the level above the last one. *)
Theorem C77_extrapolated_humidity nlev ph pf kbot temp sphum p tout q0 qo : good_half nlev ph -> compute_pres_full nlev ph = Ok pf -> 2 <= kbot <= nlev -> zlen temp = nlev -> zlen sphum = nlev ->
  (lv pf kbot < p)%R ->
  exists c, control_of (map ln pf) kbot (ln p) = Ok c /\
    (q_extrap c pf temp sphum p tout q0 = Ok qo -> exists es eo rh,
      lookup_es (lv temp (kbot - 1)) = Ok es /\ lookup_es tout = Ok eo /\
      rel_hum es (lv sphum (kbot - 1)) (lv pf (kbot - 1)) rh /\ rel_hum eo qo p rh).
Proof.
  intros H Ep Hb Ht Hq Hp. pose proof (pf_list_inside nlev ph H) as Hi. rewrite compute_pres_full_ok in Ep by exact H. injection Ep as Ep.
  rewrite Ep in Hi. pose proof (inside_good nlev ph pf H Hi) as G. pose proof G as (_ & Hpos & _).
  apply (extrap_humidity nlev); auto. pose proof (Hpos kbot ltac:(lia)). lra.
Qed.

(** The saturation vapour pressure is found for every temperature from -160 C to 100 C; at the temperatures of the
    table it is the one of the formula, and positive. *)
Theorem C77_vapour_pressure temp : (113.16 <= temp <= 373.16)%R ->
  (exists e, lookup_es temp = Ok e) /\
  forall n, temp = (113.16 + IZR n / 10)%R -> exists e, lookup_es temp = Ok e /\ compute_es temp = Ok e /\ (0 < e)%R.
Proof.
  intros H. assert (Et : tmin = 113.16%R) by (unfold tmin, TFREEZE; lra). split.
  - apply lookup_ok. rewrite Et. lra.
  - intros n E. apply (lookup_exact n); [|rewrite Et; exact E].
    split; [apply le_IZR; lra|apply le_IZR; lra].
Qed.
Example C77_vapour_nonvacuous : (113.16 <= 273.16 <= 373.16)%R /\ (273.16 = 113.16 + IZR 1600 / 10)%R.
Proof. split; lra. Qed.
(** Outside this range there is no message: the table is read outside its bounds first. *)
Theorem C77_temperature_range_refuted temp : (temp < 112 \/ 375 < temp)%R -> lookup_es temp = UB.
Proof. intros H. apply lookup_outside. unfold tmin, TFREEZE. lra. Qed.

(** ** C78 *)

(** Sea level pressure, when in every column above sea level some level with data has more than 0.8 of the surface pressure. *)
Theorem C78_sea_level_pressure nlev cols :
  Forall (fun c => slp_column_ok nlev (k_bot c) (k_zsurf c) (k_phalf c) (k_pfull c) (k_temp c) /\
    ((0.0001 < Rabs (k_zsurf c))%R -> exists k, 1 <= k <= k_bot c /\ (0.8 * lv (k_phalf c) (k_bot c + 1) < lv (k_pfull c) k)%R)) cols ->
  exists vs, sea_level_pressure cols = Ok vs /\
    Forall2 (fun c v => sea_level (k_bot c) (k_zsurf c) (k_phalf c) (k_pfull c) (k_temp c) v /\
      ((0.0001 < k_zsurf c)%R -> lv (k_phalf c) (k_bot c + 1) < 100 * v)%R) cols vs.
Proof.
  intros H. destruct (slp_spec nlev cols H) as (vs & E & F). exists vs. split; [exact E|].
  assert (HF : Forall (fun c => slp_in nlev c) cols) by (eapply Forall_impl; [|exact H]; intros c [Hc _]; exact Hc).
  clear H E. induction F as [|c v cols vs Hv F IH]; constructor; [|apply IH; inversion HF; assumption].
  split; [exact Hv|]. intros Hz. inversion HF as [|? ? Hc ?]; subst. destruct Hv as [_ Hv].
  destruct Hv as (k & Hk & _ & _ & Hr); [rewrite Rabs_right by lra; exact Hz|].
  pose proof (slp_in_pos nlev c Hc) as Hp. pose proof (pf_below_surface nlev c k Hc Hk) as Hpk.
  destruct Hc as (_ & _ & _ & _ & HT). destruct (HT k Hk) as [T1 _].
  apply (reduced_higher _ (k_zsurf c) (lv (k_temp c) k) (lv (k_pfull c) k)); auto; lra.
Qed.

Definition phA : list R := [80000; 90000; 100000]%R.
Definition phB : list R := [0; 50000; 100000]%R.
Lemma good_phA : good_half 2 phA.
Proof.
  split; [lia|]. split; [reflexivity|]. split; [change (0 <= 80000)%R; lra|].
  intros k Hk. assert (k = 1 \/ k = 2) as [-> | ->] by lia.
  - change (80000 < 90000)%R. lra.
  - change (90000 < 100000)%R. lra.
Qed.
Lemma good_phB : good_half 2 phB.
Proof.
  split; [lia|]. split; [reflexivity|]. split; [change (0 <= 0)%R; lra|].
  intros k Hk. assert (k = 1 \/ k = 2) as [-> | ->] by lia.
  - change (0 < 50000)%R. lra.
  - change (50000 < 100000)%R. lra.
Qed.
Definition colA : column := Column 2 500 phA (pf_list 2 phA) [280; 290]%R.
Definition colB : column := Column 2 1000 phB (pf_list 2 phB) [220; 290]%R.
Lemma okA : slp_in 2 colA.
Proof.
  split; [apply good_phA|]. split; [apply pf_list_inside, good_phA|]. split; [reflexivity|]. split; [cbn; lia|].
  cbn [k_bot k_temp k_zsurf colA]. intros k Hk. assert (k = 1 \/ k = 2) as [-> | ->] by lia; lvs; unfold lapse; lra.
Qed.
Lemma okB : slp_in 2 colB.
Proof.
  split; [apply good_phB|]. split; [apply pf_list_inside, good_phB|]. split; [reflexivity|]. split; [cbn; lia|].
  cbn [k_bot k_temp k_zsurf colB]. intros k Hk. assert (k = 1 \/ k = 2) as [-> | ->] by lia; lvs; unfold lapse; lra.
Qed.
Lemma pfA1 : (80000 < lv (pf_list 2 phA) 1)%R.
Proof. destruct (pf_list_inside 2 phA good_phA) as (_ & H). specialize (H 1 ltac:(lia)). change (lv phA 1) with 80000%R in H. lra. Qed.
Example C78_nonvacuous : slp_column_ok 2 (k_bot colA) (k_zsurf colA) (k_phalf colA) (k_pfull colA) (k_temp colA) /\
  exists k, 1 <= k <= k_bot colA /\ (0.8 * lv (k_phalf colA) (k_bot colA + 1) < lv (k_pfull colA) k)%R.
Proof.
  split; [exact okA|]. exists 1. split; [cbn; lia|]. cbn [k_phalf k_bot k_pfull colA]. change (lv phA (2 + 1)) with 100000%R.
  pose proof pfA1. lra.
Qed.

(** The lower layer of colB has pressure 2 ps / e < 0.8 ps *)
Lemma e_gt : (2.5 < exp 1)%R.
Proof.
  assert (H : forall n : nat, ((1 + 1 / 8) ^ n <= exp (INR n / 8))%R).
  { induction n as [|n IH]; [cbn; replace (0 / 8)%R with 0%R by lra; rewrite exp_0; lra|].
    rewrite S_INR. replace ((INR n + 1) / 8)%R with (1 / 8 + INR n / 8)%R by lra. rewrite exp_plus. cbn [pow].
    pose proof (exp_ineq1 (1 / 8) ltac:(lra)). apply Rmult_le_compat; [lra|apply pow_le; lra|lra|exact IH]. }
  specialize (H 8%nat). replace (INR 8 / 8)%R with 1%R in H by (cbn; lra). cbn in H. lra.
Qed.
Lemma pfB2 : (lv (pf_list 2 phB) 2 <= 80000)%R.
Proof.
  assert (E : lv (pf_list 2 phB) 2 = (200000 * exp (-1))%R).
  { unfold pf_list. rewrite lv_map_zseq by lia. cbv zeta.
    change (lv phB 2) with 50000%R. change (lv phB (2 + 1)) with 100000%R. cbn [Z.eqb Pos.eqb].
    unfold mean_pressure. cbn [andb].
    replace (200000)%R with (exp (ln 200000)) at 1 by (apply exp_ln; lra). rewrite <- exp_plus. f_equal.
    replace 200000%R with (100000 * 2)%R by lra. rewrite ln_mult by lra.
    replace (ln 100000) with (ln 50000 + ln 2)%R by (rewrite <- ln_mult by lra; f_equal; lra). field.
  }
  rewrite E. replace (exp (-1)) with (/ exp 1)%R by (rewrite <- exp_Ropp; reflexivity). pose proof e_gt as G. 
  apply (Rmult_le_reg_r (exp 1)); [lra|]. rewrite Rmult_assoc, Rinv_l by lra. lra.
Qed.

(** Otherwise the level comes from the column treated before, or is undefined in the first one. *)
Theorem C78_no_level_refuted : exists nlev c,
  slp_column_ok nlev (k_bot c) (k_zsurf c) (k_phalf c) (k_pfull c) (k_temp c) /\ compute_pres_full nlev (k_phalf c) = Ok (k_pfull c) /\ 2 <= k_bot c /\
  (0.0001 < k_zsurf c)%R /\ sea_level_pressure [c] = UB /\
  exists c' v' v, slp_column_ok nlev (k_bot c') (k_zsurf c') (k_phalf c') (k_pfull c') (k_temp c') /\
    sea_level_pressure [c'; c] = Ok [v'; v] /\ reduced (lv (k_phalf c) (k_bot c + 1)) (k_zsurf c) (lv (k_temp c) 1) (lv (k_pfull c) 2) v.
Proof.
  exists 2, colB. split; [exact okB|]. split; [apply compute_pres_full_ok, good_phB|]. split; [cbn; lia|]. split; [change (0.0001 < 1000)%R; lra|].
  pose proof (pf_list_inside 2 phB good_phB) as Hi. pose proof (inside_good 2 phB _ good_phB Hi) as G. pose proof G as (Hlb & Hpos & Hmon).
  assert (N : forall j, 1 <= j <= k_bot colB -> (lv (k_pfull colB) j <= 0.8 * lv (k_phalf colB) (k_bot colB + 1))%R).
  { cbn [k_bot k_pfull k_phalf colB]. change (lv phB (2 + 1)) with 100000%R. pose proof pfB2.
    intros j Hj. pose proof (good_full_le 2 _ j 2 G ltac:(lia) ltac:(lia) ltac:(lia)). lra. }
  assert (ZB : (0.0001 < Rabs (k_zsurf colB))%R) by (change (k_zsurf colB) with 1000%R; rewrite Rabs_right; lra).
  assert (ZA : (0.0001 < Rabs (k_zsurf colA))%R) by (change (k_zsurf colA) with 500%R; rewrite Rabs_right; lra).
  split; [apply (slp_none 2); [exact okB|exact ZB|exact N]|].
  exists colA.
  destruct (slp_value 2 colA None None [] 1 okA ZA ltac:(cbn; lia)) as (v' & sig & EA & _).
  { cbn [k_phalf k_bot k_pfull colA]. change (lv phA (2 + 1)) with 100000%R. pose proof pfA1. lra. }
  { intros; lia. }
  exists v'.
  assert (EB : exists v kr s, slp_column (Some 1, sig, [v']) colB = Ok (kr, s, [v'; v]) /\ reduced 100000 1000 220 (lv (pf_list 2 phB) 2) v).
  { pose proof (slp_in_pos 2 colB okB) as Hps. unfold slp_column. rewrite at_ok by (cbn; lia). cbn [bind].
    destruct (rlt_spec 0.0001 (Rabs (k_zsurf colB))); [|contradiction].
    rewrite (ref_none (k_pfull colB) _ (k_bot colB) Hps) by (assumption || (cbn [k_bot k_pfull colB]; lia)).
    cbn [bind defined fst]. change (at_ (k_temp colB) 1) with (Ok 220%R). cbn [bind].
    cbn [k_phalf k_bot k_pfull k_zsurf colB] in *. change (lv phB (2 + 1)) with 100000%R in *.
    pose proof (Hpos 2 ltac:(lia)) as Hp2. set (pk := lv (pf_list 2 phB) 2) in *.
    assert (Hs : (0 < pk / 100000)%R) by lra.
    unfold fpow at 1. destruct (rlt_spec 0 (pk / 100000)); [|contradiction]. cbn [bind].
    assert (W : (0 < Rpower (pk / 100000) mrgog)%R) by apply exp_pos.
    set (w := Rpower (pk / 100000) mrgog) in *.
    rewrite fdiv_ok by lra. cbn [bind].
    assert (P : (0 < tlapse * 1000 / (220 * w))%R) by (apply Rdiv_lt_0_compat; [unfold tlapse|]; lra).
    unfold fpow. destruct (rlt_spec 0 (1 + tlapse * 1000 / (220 * w))); [|lra]. cbn [bind app].
    eexists _, _, _. split; [reflexivity|]. unfold reduced. cbv zeta. rewrite <- mrgog_val, <- gorg_val. fold w. change tlapse with lapse. lra. }
  destruct EB as (v & kr & s & EB & R). exists v. split; [exact okA|]. split.
  - unfold sea_level_pressure. cbn [ofold]. rewrite EA. cbn [bind app]. rewrite EB. reflexivity.
  - exact R.
Qed.

(** ** C79 *)

(** A field that is only copied comes out as it went in: unpacked, or packed (with whole numbers or the missing value). *)
Theorem C79_copied a v : (a_scale a <> Some 0%R) ->
  (a_scale a = None \/ a_offset a = None \/ a_missing a = Some v \/ exists n, v = IZR n) ->
  copy_field (field_info a None) v = Ok v.
Proof. apply copy_field_id. Qed.
Example C79_copied_nonvacuous : a_scale (Attrs (Some 0.01) (Some 273) (Some (-32768)) None)%R <> Some 0%R /\ exists n, (-32768)%R = IZR n.
Proof. split; [intros [= E]; lra|exists (-32768); reflexivity]. Qed.

(** A packed field is interpolated as the numbers it stands for; the number written stands for the
    interpolated value up to half a unit. *)
Theorem C79_interpolated nlev ph pf kbot data p a d s o : good_half nlev ph -> compute_pres_full nlev ph = Ok pf ->
  (0 < p)%R -> 2 <= kbot <= nlev -> zlen data = nlev -> a_scale a = Some s -> a_offset a = Some o -> (s <> 0)%R ->
  exists c v w, control_of (map ln pf) kbot (ln p) = Ok c /\ interpolated pf (map (fun q => q * s + o)%R data) kbot p v
    /\ interp_field false (field_info a d) c data = Ok w /\ (Rabs (w * s + o - v) <= Rabs s / 2)%R.
Proof.
  intros H Ep Hp Hb Hd Es Eo Hs. pose proof (pf_list_inside nlev ph H) as Hi. rewrite compute_pres_full_ok in Ep by exact H. injection Ep as Ep. rewrite Ep in Hi. pose proof (inside_good nlev ph pf H Hi) as G.
  assert (U : map (unpack (field_info a d)) data = map (fun q => q * s + o)%R data).
  { apply map_ext. intros q. unfold unpack, field_info. rewrite Es, Eo. destruct (a_missing a) as [m|], (a_fill a) as [f|]; cbn [f_do_pack f_do_miss_in f_missval_in f_unpkd_in f_scale f_offset andb]; try reflexivity;
      match goal with |- context [reqb q ?m] => destruct (reqb_spec q m) as [-> |]; reflexivity end. }
  destruct (column_spec nlev pf kbot (map (fun q => q * s + o)%R data) p G Hp Hb) as (c & v & E1 & E2 & Hv & _); [now rewrite zlen_map|].
  assert (W : exists w, pack (field_info a d) v = Ok w /\ (Rabs (w * s + o - v) <= Rabs s / 2)%R).
  { destruct (Req_dec v (f_unpkd_out (field_info a d))) as [E|N].
    - pose proof (nint_near ((v - o) / s)) as NN. pose proof (Rabs_pos s) as PS.
      assert (Q : (Rabs (IZR (nint ((v - o) / s)) * s + o - v) <= Rabs s / 2)%R). { replace (IZR (nint ((v - o) / s)) * s + o - v)%R with ((IZR (nint ((v - o) / s)) - (v - o) / s) * s)%R by (field; exact Hs). rewrite Rabs_mult. nra. }
      revert E. unfold pack, field_info. rewrite Es, Eo.
      destruct (a_missing a) as [m|], (a_fill a) as [f|]; cbn [f_do_pack f_do_miss_out f_missval_out f_unpkd_out f_scale f_offset andb]; intros E;
        try (match goal with |- context [reqb v ?m] => destruct (reqb_spec v m); [|contradiction] end; eexists; (split; [reflexivity|]); rewrite E;
          match goal with |- (Rabs ?x <= _)%R => replace x with 0%R by (destruct d; lra) end; rewrite Rabs_R0; lra).
      rewrite fdiv_ok by exact Hs. cbn [bind]. eauto.
    - assert (E : exists w, pack (field_info a d) v = Ok w).
      { unfold pack. replace (f_do_pack (field_info a d)) with true by (unfold field_info; rewrite Es, Eo; destruct (a_missing a), (a_fill a); reflexivity).
        replace (f_scale (field_info a d)) with s by (unfold field_info; rewrite Es, Eo; destruct (a_missing a), (a_fill a); reflexivity).
        rewrite fdiv_ok by exact Hs. destruct (_ && _); eexists; reflexivity. }
      destruct E as (w & E). exists w. split; auto. apply (pack_near a d v w s o Es Eo Hs N E). }
  destruct W as (w & W & B). exists c, v, w. split; [exact E1|]. split; [exact Hv|]. split; [|exact B].
  unfold interp_field. rewrite U, E2. cbn [bind]. unfold mask_data. rewrite Bool.andb_false_r. exact W.
Qed.

(** A packed value is a whole number; unpacked it differs from the value by at most half a unit. *)
Theorem C79_packed a d v s o : a_scale a = Some s -> a_offset a = Some o -> (s <> 0)%R ->
  v <> f_unpkd_out (field_info a d) ->
  exists n, pack (field_info a d) v = Ok (IZR n) /\ (Rabs (IZR n * s + o - v) <= Rabs s / 2)%R.
Proof.
  intros Es Eo Hs Hv.
  assert (E : exists w, pack (field_info a d) v = Ok w).
  { unfold pack. replace (f_do_pack (field_info a d)) with true by (unfold field_info; rewrite Es, Eo; destruct (a_missing a), (a_fill a); reflexivity).
    replace (f_scale (field_info a d)) with s by (unfold field_info; rewrite Es, Eo; destruct (a_missing a), (a_fill a); reflexivity).
    rewrite fdiv_ok by exact Hs. destruct (_ && _); eexists; reflexivity. }
  destruct E as (w & E). destruct (pack_near a d v w s o Es Eo Hs Hv E) as [(n & ->) Hn]. exists n. auto.
Qed.
