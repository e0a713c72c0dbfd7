(** * Property C34: generated 1-D grids *)
From Coq Require Import Lra Psatz.
From Verif Require Import Base Loops Lst Vec M_Interp Spec_Interp P_Interp P_Interp2 P_Spline T_Interp M_GridBound P_GridBound Spec_GridBound P_GridBound2.
Local Open Scope Z_scope.
Ltac Zify.zify_post_hook ::= Z.to_euclidean_division_equations.

Lemma bound_run nb bnds npts r : 2 <= nb -> zlen bnds = nb -> zlen npts = nb - 1 -> r = 1 \/ r = 2 -> (forall p, In p npts -> 0 < p /\ p mod r = 0) -> increasing bnds ->
  exists n grid1 grid2 tmp, n = before npts (nb - 1) / r /\ 0 < n
   /\ (exists g0, oset (alloc nb) 0 1%R = Ok g0 /\
   ofor 1 (nb - 1) (fun '(n, grid1) i =>
      do p <- oget npts (i - 1) ;
      if negb (Z.rem p r =? 0) then Err 4
      else
        let n := n + Z.quot p r in
        do grid1 <- oset grid1 i (IZR (n + 1)) ;
        Ok (n, grid1)) (0, g0) = Ok (n, grid1))
   /\ ofor 0 (n + 1) (fun g i => oset g i (IZR i + 1)%R) (alloc (n + 1)) = Ok grid2
   /\ cubic_spline_sp nb (n + 1) grid1 grid2 bnds (alloc (n + 1)) = Ok tmp /\ zlen tmp = n + 1
   /\ (forall i, 0 <= i < nb -> at_ tmp (before npts i / r) = at_ bnds i /\ before npts i = r * (before npts i / r))
   /\ (forall k k', 0 <= k < k' -> k' < n + 1 -> (at_ tmp k < at_ tmp k')%R).
Proof.
  intros Hnb Lb Ln Hr Hp IB. destruct (bound_spline nb bnds npts r Hnb Lb Ln Hr Hp IB) as (tmp & E & L & HI & HS).
  exists (cum npts r (nb - 1)), (map (fun i => IZR (cum npts r i + 1)) (zseq 0 nb)), (map (fun i => (IZR i + 1)%R) (zseq 0 (cum npts r (nb - 1) + 1))), tmp.
  split; auto. split; [apply (n_pos nb npts r); auto|]. split.
  - pose proof (bound_loops nb bnds npts r Hnb Lb Ln Hr Hp (fun x => Ok x)) as B. destruct (oset (alloc nb) 0 1%R) as [g0|e|] eqn:E0; cbn [bind] in B; try discriminate. exists g0. split; auto.
    match type of B with bind ?o _ = _ => destruct o as [[n1 g1]| |] eqn:E1 end; cbn [bind] in B; try discriminate. exact B.
  - split; [apply (grid2_loop nb npts r); auto|]. split; auto. split; auto. split; auto. intros i Hi. split; [apply HI; auto|]. apply (before_div nb npts r); auto. lia.
Qed.

Lemma before_all npts n : zlen npts = n -> before npts n = zsum npts.
Proof. intros <-. unfold before, zlen. rewrite Nat2Z.id, firstn_all. reflexivity. Qed.

(** For strictly increasing bounds and positive numbers of cells (even ones when a centring is
    asked for), the size is the total number of cells, the grid increases strictly from the first
    bound to the last, and (for 'none' and 't_cell') every bound is the grid point whose index is
    the number of cells before it.  Missing: with 'c_cell' interior bounds are not kept (next
    theorem). *)
Theorem C34_grid_partial : forall nb bnds npts c, 2 <= nb -> zlen bnds = nb -> zlen npts = nb - 1 -> increasing bnds ->
  (forall p, In p npts -> 0 < p) -> c <> C_other -> (c <> C_none -> forall p, In p npts -> p mod 2 = 0) ->
  exists grid, compute_grid_bound nb bnds npts c = Ok (zsum npts, grid) /\ zlen grid = zsum npts + 1 /\ increasing grid
    /\ at_ grid 0 = at_ bnds 0 /\ at_ grid (zsum npts) = at_ bnds (nb - 1)
    /\ (c <> C_c_cell -> forall i, 0 <= i < nb -> at_ grid (before npts i) = at_ bnds i).
Proof.
  intros nb bnds npts c Hnb Lb Ln IB Hp Hc He.
  assert (HR : exists r, refine_of c = Ok r /\ (r = 1 \/ r = 2) /\ forall p, In p npts -> 0 < p /\ p mod r = 0).
  { destruct c; try congruence; eexists; (split; [reflexivity|split; [auto|]]); intros p Hi; (split; [auto|]); [lia| |]; apply He; auto; discriminate. }
  destruct HR as (r & ER & Hr & Hpr).
  destruct (bound_run nb bnds npts r Hnb Lb Ln Hr Hpr IB) as (n & grid1 & grid2 & tmp & En & NP & (g0 & E0 & E1) & E2 & E3 & LT & HI & HS).
  assert (EZ : zsum npts = r * n). { rewrite <- (before_all npts (nb - 1)) by auto. rewrite En. apply HI. lia. }
  unfold compute_grid_bound. rewrite ER. cbn [bind]. rewrite E0. cbn [bind]. cbn zeta in E1. cbn zeta. rewrite E1. cbn [bind]. cbn zeta. rewrite E2. cbn [bind]. rewrite E3. cbn [bind]. clear E0 E1 E2 E3.
  assert (T0 : at_ tmp 0 = at_ bnds 0). { rewrite <- (proj1 (HI 0 ltac:(lia))). unfold before. cbn. now destruct Hr as [-> | ->]. }
  assert (TN : at_ tmp n = at_ bnds (nb - 1)). { rewrite <- (proj1 (HI (nb - 1) ltac:(lia))). now rewrite En. }
  assert (BR : forall i, 0 <= i < nb -> 0 <= before npts i / r).
  { intros i Hi. unfold before. assert (Q : forall k, 0 <= zsum (firstn k npts)). { intros k. assert (G : forall x, In x (firstn k npts) -> 0 < x) by (intros x Hx; apply Hp; revert Hx; apply Lst.firstn_In). induction (firstn k npts); cbn; [lia|]. pose proof (G a (or_introl eq_refl)). unfold zsum in *. assert (0 <= fold_right Z.add 0 l); [|lia]. apply IHl. intros; apply G; now right. }
    specialize (Q (Z.to_nat i)). destruct Hr as [-> | ->]; lia. }
  assert (BM : forall i, 0 <= i < nb -> before npts i / r <= n).
  { intros i Hi. rewrite En. destruct (Z.eq_dec i (nb - 1)) as [-> |N]; [apply Z.le_refl|]. apply Z.lt_le_incl, (cum_mono nb npts r Ln Hr Hpr i (nb - 1)); clear - Hi N; lia. }
  assert (BQ : forall i, 0 <= i < nb -> exists q, before npts i / r = q /\ 0 <= q <= n /\ at_ tmp q = at_ bnds i /\ before npts i = r * q).
  { intros i Hi. exists (before npts i / r). destruct (HI i Hi) as [A B]. repeat split; auto. }
  clear BR BM HI.
  destruct c; try congruence; cbn [refine_of] in ER; inversion ER; subst r.
  - destruct (fill_none nb npts 1 Hnb Ln Hr Hpr) with (tmp := tmp) as (g & E & V). { unfold cum. now rewrite <- En. } unfold cum in E, V. rewrite <- En in E, V. clear En. rewrite E. cbn [bind]. exists g. replace (n * 1) with (zsum npts) by lia. split; auto. split; [destruct V; lia|]. split.
    + intros i j Hi Hj. destruct V as [LG V]. rewrite LG in Hj. rewrite !(vec_at_ _ _ _ _ (conj LG V)) by lia. apply HS; lia.
    + split; [rewrite (vec_at_ _ _ _ _ V) by lia; auto|]. split; [rewrite (vec_at_ _ _ _ _ V) by lia; rewrite <- TN; f_equal; lia|]. intros _ i Hi. destruct (BQ i Hi) as (q & _ & Hq & A & B). clear BQ. rewrite (vec_at_ _ _ _ _ V) by lia. rewrite <- A. f_equal. lia.
  - destruct (fill_t nb npts 2 Hnb Ln Hr Hpr) with (tmp := tmp) as (g & E & V). { unfold cum. now rewrite <- En. } unfold cum in E, V. rewrite <- En in E, V. clear En. rewrite E. cbn [bind]. exists g. replace (n * 2) with (zsum npts) in * by lia. split; auto. split; [apply V|].
    assert (EV : forall i, 0 <= i <= n -> at_ g (2 * i) = at_ tmp i). { intros i Hi. rewrite (vec_at_ _ _ _ _ V) by lia. replace ((2 * i) mod 2) with 0 by lia. cbn [Z.eqb]. f_equal. lia. }
    assert (OD : forall i, 0 <= i < n -> at_ g (2 * i + 1) = mid tmp i). { intros i Hi. rewrite (vec_at_ _ _ _ _ V) by lia. replace ((2 * i + 1) mod 2) with 1 by lia. cbn [Z.eqb]. f_equal. lia. }
    split; [|split; [|split]].
    + apply steps_inc. intros i Hi. assert (LG : zlen g = zsum npts + 1) by apply V. rewrite LG in Hi. assert (C : exists k, 0 <= k < n /\ (i = 2 * k + 1 \/ i = 2 * (k + 1))). { exists ((i - 1) / 2). lia. }
      destruct C as (k & Hk & [-> | ->]); [replace (2 * k + 1 - 1) with (2 * k) by lia|replace (2 * (k + 1) - 1) with (2 * k + 1) by lia]; rewrite EV, OD by lia; pose proof (HS k (k + 1) ltac:(lia) ltac:(lia)); unfold mid; lra.
    + change 0 with (2 * 0). rewrite EV by lia. auto.
    + replace (zsum npts) with (2 * n) by lia. rewrite EV by lia. auto.
    + intros _ i Hi. destruct (BQ i Hi) as (q & _ & Hq & A & B). rewrite B. rewrite EV by lia. auto.
  - destruct (fill_c nb npts 2 Hnb Ln Hr Hpr) with (tmp := tmp) as (g & E & V). { unfold cum. now rewrite <- En. } unfold cum in E, V. rewrite <- En in E, V. clear En. rewrite E. cbn [bind]. exists g. replace (n * 2) with (zsum npts) in * by lia. split; auto. split; [apply V|].
    assert (OD : forall i, 0 <= i < n -> at_ g (2 * i + 1) = mid tmp i). { intros i Hi. rewrite (vec_at_ _ _ _ _ V) by lia. replace ((2 * i + 1) mod 2) with 1 by lia. cbn [Z.eqb]. f_equal. lia. }
    assert (EV : forall i, 0 < i < n -> at_ g (2 * i) = (1 / 2 * (mid tmp (i - 1) + mid tmp i))%R). { intros i Hi. rewrite (vec_at_ _ _ _ _ V) by lia. replace ((2 * i) mod 2) with 0 by lia. cbn [Z.eqb]. destruct (Z.eqb_spec (2 * i) 0); [lia|]. destruct (Z.eqb_spec (2 * i) (2 * n)); [lia|]. now replace (2 * i / 2) with i by lia. }
    assert (E0 : at_ g 0 = at_ tmp 0) by (rewrite (vec_at_ _ _ _ _ V) by lia; reflexivity).
    assert (EN : at_ g (2 * n) = at_ tmp n). { rewrite (vec_at_ _ _ _ _ V) by lia. replace ((2 * n) mod 2) with 0 by lia. cbn [Z.eqb]. destruct (Z.eqb_spec (2 * n) 0); [lia|]. destruct (Z.eqb_spec (2 * n) (2 * n)); [auto|lia]. }
    split; [|split; [|split]]; [|congruence|replace (zsum npts) with (2 * n) by lia; congruence|congruence].
    assert (MI : forall k, 0 < k < n -> (mid tmp (k - 1) < mid tmp k)%R). { intros k Hk. unfold mid. pose proof (HS (k - 1) k ltac:(lia) ltac:(lia)). pose proof (HS k (k + 1) ltac:(lia) ltac:(lia)). replace (k - 1 + 1) with k by lia. lra. }
    assert (MT : forall k, 0 <= k < n -> (at_ tmp k < mid tmp k < at_ tmp (k + 1))%R). { intros k Hk. unfold mid. pose proof (HS k (k + 1) ltac:(lia) ltac:(lia)). lra. }
    apply steps_inc. intros i Hi. assert (LG : zlen g = zsum npts + 1) by apply V. rewrite LG in Hi. assert (C : exists k, 0 <= k < n /\ (i = 2 * k + 1 \/ i = 2 * (k + 1))). { exists ((i - 1) / 2). lia. }
    destruct C as (k & Hk & [-> | ->]); [replace (2 * k + 1 - 1) with (2 * k) by lia|replace (2 * (k + 1) - 1) with (2 * k + 1) by lia]; rewrite OD by lia.
    + destruct (Z.eq_dec k 0) as [-> |N]. * change (2 * 0) with 0. rewrite E0. pose proof (MT 0 Hk). lra. * rewrite EV by lia. pose proof (MI k ltac:(lia)). lra.
    + destruct (Z.eq_dec (k + 1) n) as [Q|N]. * rewrite Q, EN. pose proof (MT k Hk) as M. rewrite Q in M. lra. * rewrite EV by lia. pose proof (MI (k + 1) ltac:(lia)) as M. replace (k + 1 - 1) with k in * by lia. lra.
Qed.

(** A wrong centring, or an odd number of cells with a centring, is refused. *)
Theorem C34_refused : forall nb bnds npts c, 2 <= nb -> zlen npts = nb - 1 ->
  c = C_other \/ (c <> C_none /\ exists p, In p npts /\ p mod 2 <> 0) -> exists e, compute_grid_bound nb bnds npts c = Err e.
Proof.
  intros nb bnds npts c Hnb Ln [-> | (Hc & p & Hp & Hodd)]. { eexists; reflexivity. }
  unfold compute_grid_bound. destruct (refine_of c) as [r|e|] eqn:ER; [|eexists; reflexivity|destruct c; discriminate]. cbn [bind]. assert (r = 2) as -> by (destruct c; cbn in ER; congruence).
  destruct (zset_Some (alloc nb) 0 1%R) as (g0 & E0). { unfold alloc. rewrite zlen_repeat. lia. } assert (L0 : zlen g0 = nb). { rewrite (zset_len _ _ _ _ E0). unfold alloc. rewrite zlen_repeat. lia. }
  rewrite (proj2 (oset_Ok _ _ _ _) E0). cbn [bind]. clear E0. destruct (In_zget _ _ Hp) as (j & Hj & Ej).
  match goal with |- context [ofor 1 (nb - 1) ?f ?s] => assert (G : exists e, ofor 1 (nb - 1) f s = Err e); [|destruct G as (e & ->); cbn [bind]; eauto] end.
  unfold ofor, zseq.
  assert (G : forall k lo acc g0, 1 <= lo <= j + 1 -> lo + Z.of_nat k = nb -> zlen g0 = nb ->
    exists e, ofold (fun '(n, grid1) i => do p <- oget npts (i - 1) ; if negb (Z.rem p 2 =? 0) then Err 4 else do grid2 <- oset grid1 i (IZR (n + Z.quot p 2 + 1)) ; Ok (n + Z.quot p 2, grid2)) (zseq_nat lo k) (acc, g0) = Err e).
  { clear - Ln Hj Ej Hodd Hnb. induction k as [|k IH]; intros lo acc g0 Hlo HE L0; [lia|]. cbn [zseq_nat ofold]. destruct (zget_in_range npts (lo - 1)) as (q & Eq); [lia|]. rewrite (proj2 (oget_Ok _ _ _) Eq). cbn [bind].
    destruct (Z.eqb_spec (Z.rem q 2) 0) as [Z|N]; cbn [negb]; [|cbn [bind]; eauto]. destruct (zset_Some g0 lo (IZR (acc + Z.quot q 2 + 1))) as (g1 & E1); [lia|]. rewrite (proj2 (oset_Ok _ _ _ _) E1). cbn [bind]. apply IH; [|lia|rewrite (zset_len _ _ _ _ E1); auto].
    destruct (Z.eq_dec lo (j + 1)) as [-> |]; [|lia]. replace (j + 1 - 1) with j in Eq by lia. rewrite Ej in Eq. inversion Eq; subst. lia. }
  destruct (G (Z.to_nat (nb - 1)) 1 0 g0) as (e & E); try lia. exists e. exact E.
Qed.

(** With 'c_cell', bounds 0, 1, 3 with 2 and 2 cells: the grid does not contain the bound 1. *)
Theorem C34_c_cell_refuted : exists bnds npts grid, increasing bnds /\ (forall p, In p npts -> 0 < p /\ p mod 2 = 0)
  /\ compute_grid_bound 3 bnds npts C_c_cell = Ok (zsum npts, grid) /\ forall i, 0 <= i < zlen grid -> at_ grid i <> at_ bnds 1.
Proof.
  assert (IB : increasing [0; 1; 3]%R) by (apply inc3; lra). assert (Hp : forall p, In p [2; 2] -> 0 < p /\ p mod 2 = 0) by (cbn; intuition; subst; reflexivity).
  exists [0; 1; 3]%R, [2; 2].
  destruct (bound_run 3 [0; 1; 3]%R [2; 2] 2 ltac:(lia) eq_refl eq_refl (or_intror eq_refl) Hp IB) as (n & grid1 & grid2 & tmp & En & NP & (g0 & E0 & E1) & E2 & E3 & LT & HI & HS).
  change (before [2; 2] (3 - 1) / 2) with 2 in En. subst n. destruct (fill_c 3 [2; 2] 2 ltac:(lia) eq_refl (or_intror eq_refl) Hp) with (tmp := tmp) as (g & E & V); auto.
  change (cum [2; 2] 2 (3 - 1)) with 2 in *. exists g. split; auto. split; auto. split.
  - unfold compute_grid_bound, refine_of. cbn [bind]. rewrite E0. cbn [bind]. cbn zeta in E1. cbn zeta. rewrite E1. cbn [bind]. cbn zeta. rewrite E2. cbn [bind]. rewrite E3. cbn [bind]. rewrite E. reflexivity.
  - destruct (HI 0 ltac:(lia)) as [T0 _]. destruct (HI 1 ltac:(lia)) as [T1 _]. destruct (HI 2 ltac:(lia)) as [T2 _]. change (before [2; 2] 0 / 2) with 0 in T0. change (before [2; 2] 1 / 2) with 1 in T1. change (before [2; 2] 2 / 2) with 2 in T2. ats.
    intros i Hi. assert (LG : zlen g = 2 * 2 + 1) by apply V. rewrite LG in Hi. rewrite (vec_at_ _ _ _ _ V) by lia. ats.
    assert (i = 0 \/ i = 1 \/ i = 2 \/ i = 3 \/ i = 4) as [-> |[-> |[-> |[-> | ->]]]] by lia; cbn -[mid at_]; unfold mid; cbn [Z.add Pos.add Pos.succ]; rewrite ?T0, ?T1, ?T2; lra.
Qed.

Example C34_example : increasing [0; 1; 3]%R /\ (forall p, In p [4; 2] -> 0 < p) /\ (forall p, In p [4; 2] -> p mod 2 = 0) /\ zlen [4; 2] = 3 - 1.
Proof. split; [apply inc3; lra|]. repeat split; cbn; intuition; subst; (reflexivity || lia). Qed.

Print Assumptions C34_grid_partial.
Print Assumptions C34_refused.
Print Assumptions C34_c_cell_refuted.
