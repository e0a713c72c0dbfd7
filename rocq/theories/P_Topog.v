(** * filter_topo *)
From Coq Require Import Lra Lia.
From Verif Require Import Base Loops Grid2 Vec M_Interp M_Runoff M_Topog Spec_Interp Spec_Topog P_Interp P_Runoff.
Local Open Scope R_scope.

Lemma fget {A} (g : list A) w h F a b n : fields g w h F -> (0 <= a < w)%Z -> (0 <= b < h)%Z -> n = (b * w + a)%Z -> oget g n = Ok (F a b).
Proof. intros H Ha Hb ->. eapply fields_get; eauto. Qed.

Ltac zc := repeat match goal with
  | |- context [(?a <? ?b)%Z] => destruct (Z.ltb_spec a b); cbn [andb orb]; try lia
  | |- context [(?a <=? ?b)%Z] => destruct (Z.leb_spec a b); cbn [andb orb]; try lia
  | |- context [(?a =? ?b)%Z] => destruct (Z.eqb_spec a b); cbn [andb orb]; try lia end; subst; try lia; auto.

(** Two nested loops with an invariant. *)
Lemma nest_inv {S} (P : Z -> Z -> S -> Prop) (f : S -> Z -> Z -> outcome S) jlo nj ilo ni s :
  (0 <= nj)%Z -> (0 <= ni)%Z -> P jlo ilo s ->
  (forall j i s, (jlo <= j < jlo + nj)%Z -> (ilo <= i < ilo + ni)%Z -> P j i s -> exists s', f s j i = Ok s' /\ P j (i + 1)%Z s') ->
  (forall j s, (jlo <= j < jlo + nj)%Z -> P j (ilo + ni)%Z s -> P (j + 1)%Z ilo s) ->
  exists s', ofor jlo nj (fun s j => ofor ilo ni (fun s i => f s j i) s) s = Ok s' /\ P (jlo + nj)%Z ilo s'.
Proof.
  intros Hj Hi H0 Hs Hr. apply (ofor_inv (fun j s => P j ilo s)); auto.
  intros j s1 Rj P1. destruct (ofor_inv (fun i s => P j i s) (fun s i => f s j i) ilo ni s1 Hi P1) as (s2 & E2 & P2); eauto.
Qed.

Section pass.
Variables (nxg nyg : Z) (allow : bool) (rmask : list R) (M : Z -> Z -> bool).
Hypothesis Hm : fields rmask nxg nyg (fun x y => if M x y then 1 else 0).

Lemma nine_run dg D i j : fields dg nxg nyg D -> (1 <= i < nxg - 1)%Z -> (1 <= j < nyg - 1)%Z ->
  nine_points nxg rmask dg j i = Ok (shapiro M D i j).
Proof.
  intros Hd Hi Hj. unfold nine_points.
  assert (B : forall ip jp acc w, (-1 <= ip <= 1)%Z -> (-1 <= jp <= 1)%Z -> oget filter_weights ((ip + 1) * 3 + jp + 1) = Ok w ->
    (do r <- oget rmask ((j + jp) * nxg + i + ip) ; do w <- oget filter_weights ((ip + 1) * 3 + jp + 1) ;
     if reqb r 0 then do d <- oget dg (j * nxg + i) ; Ok (acc + d * w)
     else do d <- oget dg ((j + jp) * nxg + i + ip) ; Ok (acc + d * w))
    = Ok (acc + (if M (i + ip)%Z (j + jp)%Z then D (i + ip)%Z (j + jp)%Z else D i j) * w)).
  { intros ip jp acc w H1 H2 E. rewrite (fget _ _ _ _ (i + ip)%Z (j + jp)%Z _ Hm) by lia. cbn [bind]. rewrite E. cbn [bind].
    destruct (M (i + ip)%Z (j + jp)%Z).
    - destruct (reqb_spec 1 0); [lra|]. rewrite (fget _ _ _ _ (i + ip)%Z (j + jp)%Z _ Hd) by lia. reflexivity.
    - destruct (reqb_spec 0 0); [|lra]. rewrite (fget _ _ _ _ i j _ Hd) by lia. reflexivity. }
  unfold ofor. change (zseq (-1) 3) with [(-1)%Z; 0%Z; 1%Z]. cbn [ofold bind].
  rewrite (B ((-1))%Z ((-1))%Z _ (1/16)) by (lia || reflexivity). cbn [bind].
  rewrite (B ((-1))%Z (0)%Z _ (1/8)) by (lia || reflexivity). cbn [bind].
  rewrite (B ((-1))%Z (1)%Z _ (1/16)) by (lia || reflexivity). cbn [bind].
  rewrite (B (0)%Z ((-1))%Z _ (1/8)) by (lia || reflexivity). cbn [bind].
  rewrite (B (0)%Z (0)%Z _ (1/4)) by (lia || reflexivity). cbn [bind].
  rewrite (B (0)%Z (1)%Z _ (1/8)) by (lia || reflexivity). cbn [bind].
  rewrite (B (1)%Z ((-1))%Z _ (1/16)) by (lia || reflexivity). cbn [bind].
  rewrite (B (1)%Z (0)%Z _ (1/8)) by (lia || reflexivity). cbn [bind].
  rewrite (B (1)%Z (1)%Z _ (1/16)) by (lia || reflexivity). cbn [bind].
  f_equal. unfold shapiro. rewrite !Z.add_0_r.
  replace (if M i j then D i j else D i j) with (D i j) by (destruct (M i j); auto). field.
Qed.

Lemma point_run dg D s i j S : fields dg nxg nyg D -> fields s nxg nyg S -> (1 <= i < nxg - 1)%Z -> (1 <= j < nyg - 1)%Z ->
  (M i j = false -> D i j = 0) ->
  exists s', filter_point nxg allow rmask dg s j i = Ok s'
   /\ fields s' nxg nyg (fun x y => if (x =? i)%Z && (y =? j)%Z then smooth nxg nyg allow M D i j else S x y).
Proof.
  intros Hd Hs Hi Hj Hl. unfold filter_point. rewrite (fget _ _ _ _ i j _ Hd) by lia. cbn [bind]. rewrite (nine_run _ D) by auto. cbn [bind].
  rewrite (fget _ _ _ _ i j _ Hm) by lia. cbn [bind]. eapply fields_set; [exact Hs|lia|lia|]. intros x y Hx Hy. destruct ((x =? i)%Z && (y =? j)%Z); auto.
  unfold smooth. replace (inside nxg nyg i j) with true.
  2:{ symmetry. unfold inside. rewrite !andb_true_iff, !Z.leb_le, !Z.ltb_lt. lia. }
  destruct (M i j) eqn:EM; cbn [andb].
  - rewrite Rmult_1_r. destruct allow; cbn [negb andb]; auto. unfold rlt, Rmin. destruct (Rlt_dec (D i j) (shapiro M D i j)), (Rle_dec (shapiro M D i j) (D i j)); lra.
  - rewrite Rmult_0_r. apply Hl. reflexivity.
Qed.

Lemma pass_run s dg D : (0 < nxg)%Z -> (0 < nyg)%Z -> fields s nxg nyg D -> fields dg nxg nyg D ->
  (forall x y, M x y = false -> (0 <= x < nxg)%Z -> (0 <= y < nyg)%Z -> D x y = 0) ->
  exists s' dg', filter_pass nxg nyg allow rmask (s, dg) = Ok (s', dg')
   /\ fields s' nxg nyg (smooth nxg nyg allow M D) /\ fields dg' nxg nyg (smooth nxg nyg allow M D).
Proof.
  intros Hx Hy Hs Hd Hl. unfold filter_pass. set (G := smooth nxg nyg allow M D).
  set (P := fun j i (s : list R) => fields s nxg nyg (fun x y => if ((y <? j) || ((y =? j) && (x <? i)))%Z then G x y else D x y)).
  assert (Out : forall x y, inside nxg nyg x y = false -> G x y = D x y).
  { intros x y E. unfold G, smooth. now rewrite E. }
  assert (In' : forall x y, inside nxg nyg x y = false \/ (1 <= x < nxg - 1 /\ 1 <= y < nyg - 1)%Z).
  { intros x y. unfold inside. destruct (Z.leb_spec 1 x), (Z.ltb_spec x (nxg - 1)), (Z.leb_spec 1 y), (Z.ltb_spec y (nyg - 1)); cbn; auto; right; lia. }
  assert (Loop : exists s', ofor 1 (nyg - 2) (fun s j => ofor 1 (nxg - 2) (fun s i => filter_point nxg allow rmask dg s j i) s) s = Ok s' /\ fields s' nxg nyg G).
  { destruct (Z_lt_le_dec (nyg - 2) 0) as [Ln|Ln].
    { exists s. split; [rewrite ofor_0 by lia; reflexivity|]. eapply fields_ext; [|exact Hs]. intros x y Rx Ry. symmetry. apply Out. destruct (In' x y); auto; lia. }
    destruct (Z_lt_le_dec (nxg - 2) 0) as [Ln'|Ln'].
    { exists s. split; [|eapply fields_ext; [|exact Hs]; intros x y Rx Ry; symmetry; apply Out; destruct (In' x y); auto; lia].
      destruct (ofor_inv (fun _ s' => s' = s) (fun s j => ofor 1 (nxg - 2) (fun s i => filter_point nxg allow rmask dg s j i) s) 1 (nyg - 2) s Ln eq_refl) as (s' & E & ->); auto.
      intros i s' _ ->. exists s. split; auto. rewrite ofor_0 by lia. reflexivity. }
    destruct (nest_inv P (fun s j i => filter_point nxg allow rmask dg s j i) 1 (nyg - 2) 1 (nxg - 2) s Ln Ln') as (s' & E & H).
    - eapply fields_ext; [|exact Hs]. intros x y Rx Ry. destruct (In' x y) as [O|O]; [rewrite Out by auto; destruct (_ || _); auto|].
      destruct (Z.ltb_spec y 1), (Z.eqb_spec y 1), (Z.ltb_spec x 1); cbn; auto; lia.
    - intros j i s1 Rj Ri H1. destruct (point_run dg D s1 i j _ Hd H1 ltac:(lia) ltac:(lia)) as (s2 & E2 & H2); [intros; apply Hl; auto; lia|].
      exists s2. split; auto. eapply fields_ext; [|exact H2]. intros x y Rx Ry. cbv beta. fold (G i j).
      destruct (Z.eqb_spec x i), (Z.eqb_spec y j); cbn [andb]; subst; zc.
    - intros j s1 Rj H1. eapply fields_ext; [|exact H1]. intros x y Rx Ry. cbv beta. destruct (In' x y) as [O|O]; [rewrite Out by auto; destruct (_ || _), (_ || _); auto|].
      destruct (Z.ltb_spec y j), (Z.ltb_spec y (j + 1)), (Z.eqb_spec y j), (Z.eqb_spec y (j + 1)), (Z.ltb_spec x (1 + (nxg - 2))), (Z.ltb_spec x 1); cbn; auto; lia.
    - exists s'. split; auto. eapply fields_ext; [|exact H]. intros x y Rx Ry. cbv beta. destruct (In' x y) as [O|O]; [rewrite Out by auto; destruct (_ || _); auto|].
      destruct (Z.ltb_spec y (1 + (nyg - 2))); cbn; auto; lia. }
  destruct Loop as (s' & -> & H'). cbn [bind].
  destruct (ofor_fill (fun dg i => do v <- oget s' i ; oset dg i v) (nxg * nyg) 0 (nxg * nyg) (at_ dg) (at_ s') dg) as (dg' & E & Hg).
  - nia.
  - lia.
  - lia.
  - destruct Hd as [L _]. rewrite <- L. apply vec_at.
  - intros i g F Hi _ _ _. destruct H' as [L' _]. rewrite get_at by lia. reflexivity.
  - rewrite E. cbn [bind]. exists s', dg'. split; [reflexivity|]. split; auto.
    destruct H' as [L' H']. destruct Hg as [Lg Hg]. split; auto. intros x y Rx Ry. pose proof (rowmajor_range nyg nxg y x Ry Rx) as R.
    rewrite Hg by lia. replace (_ && _) with true. 2:{ symmetry. rewrite andb_true_iff, Z.leb_le, Z.ltb_lt. lia. }
    f_equal. apply at_zget. auto.
Qed.
End pass.

Lemma smooth_land nx ny allow M D : (forall x y, M x y = false -> D x y = 0) -> forall x y, M x y = false -> smooth nx ny allow M D x y = 0.
Proof. intros H x y E. unfold smooth. rewrite E, andb_false_r. auto. Qed.

Lemma iter_land nx ny allow D n : forall x y, wet D x y = false -> smoothed nx ny allow n D x y = 0.
Proof.
  unfold smoothed. induction n; cbn.
  - intros x y. unfold wet. destruct (Req_EM_T _ _); auto; discriminate.
  - intros x y E. now apply smooth_land.
Qed.

Theorem filter_run nxg nyg is ie js je num_pass allow tmp D :
  (0 <= is <= ie)%Z -> (ie < nxg)%Z -> (0 <= js <= je)%Z -> (je < nyg)%Z -> (0 <= num_pass)%Z -> fields tmp nxg nyg D ->
  exists out, filter_topo nxg nyg is ie js je num_pass allow tmp = Ok out
   /\ fields out (ie - is + 1) (je - js + 1) (fun x y => smoothed nxg nyg allow (Z.to_nat num_pass) D (is + x)%Z (js + y)%Z).
Proof.
  intros Hi Hi' Hj Hj' Hp Ht. unfold filter_topo.
  assert (Mk : exists s rmask, filter_mask nxg nyg tmp = Ok (s, rmask) /\ fields s nxg nyg D /\ fields rmask nxg nyg (fun x y => if wet D x y then 1 else 0)).
  { unfold filter_mask. assert (L : zlen tmp = (nxg * nyg)%Z) by apply Ht.
    set (V := fun k (r : list R) (F : Z -> R) => zlen r = (nxg * nyg)%Z /\ forall i, (0 <= i < k)%Z -> zget r i = Some (F i)).
    destruct (ofor_inv (fun k (st : list R * list R) => V k (fst st) (at_ tmp) /\ V k (snd st) (fun i => if Req_EM_T (at_ tmp i) 0 then 0 else 1))
      (fun st i => let '(s, rmask) := st in do d <- oget tmp i ; do s <- oset s i d ; do rmask <- oset rmask i (if reqb d 0 then 0 else 1) ; Ok (s, rmask)) 0 (nxg * nyg) (alloc (nxg * nyg), alloc (nxg * nyg))) as ((s & m) & E & H1 & H2).
    - nia.
    - unfold V, alloc; cbn; split; split; try (intros; lia); rewrite zlen_repeat; nia.
    - intros i (s & m) Ri ((L1 & H1) & (L2 & H2)). cbn in *. rewrite get_at by lia. cbn [bind].
      assert (Rs : (0 <= i < zlen s)%Z) by (rewrite L1; lia). assert (Rm : (0 <= i < zlen m)%Z) by (rewrite L2; lia).
      destruct (zset_Some s i (at_ tmp i) Rs) as (s' & E1). destruct (zset_Some m i (if reqb (at_ tmp i) 0 then 0 else 1) Rm) as (m' & E2).
      assert (O1 : oset s i (at_ tmp i) = Ok s') by (now apply oset_Ok). assert (O2 : oset m i (if reqb (at_ tmp i) 0 then 0 else 1) = Ok m') by (now apply oset_Ok).
      rewrite O1. cbn [bind]. rewrite O2. cbn [bind]. eexists. split; [reflexivity|]. cbn. split; (split; [rewrite (zset_len _ _ _ _ E1) || rewrite (zset_len _ _ _ _ E2); auto|]).
      + intros k Rk. destruct (Z.eq_dec k i) as [->|N]; [apply (zget_zset_eq _ _ _ _ E1)|]. rewrite (zget_zset_ne _ _ _ _ _ E1) by lia. apply H1. lia.
      + intros k Rk. destruct (Z.eq_dec k i) as [->|N]; [rewrite (zget_zset_eq _ _ _ _ E2)|]. { unfold reqb. destruct (Req_EM_T (at_ tmp i) 0); auto. }
        rewrite (zget_zset_ne _ _ _ _ _ E2) by lia. apply H2. lia.
    - exists s, m. split; auto. destruct H1 as (L1 & H1), H2 as (L2 & H2). destruct Ht as [_ Ht]. split; (split; [auto|]); intros x y Rx Ry;
        pose proof (rowmajor_range nyg nxg y x Ry Rx) as R.
      + cbn in H1. rewrite H1 by lia. f_equal. apply at_zget. auto.
      + cbn in H2. rewrite H2 by lia. unfold wet. rewrite (at_zget _ _ _ (Ht x y Rx Ry)). destruct (Req_EM_T _ _); auto. }
  destruct Mk as (s0 & m & -> & Hs & Hm). cbn [bind].
  destruct (ofor_inv (fun k (st : list R * list R) => fields (fst st) nxg nyg (smoothed nxg nyg allow (Z.to_nat (k - 1)) D) /\ fields (snd st) nxg nyg (smoothed nxg nyg allow (Z.to_nat (k - 1)) D))
    (fun st _ => filter_pass nxg nyg allow m st) 1 num_pass (s0, tmp) Hp) as ((s & dg) & E & _ & Hdg).
  - cbn. split; auto.
  - intros k (s & dg) Rk (H1 & H2). cbn [fst snd] in *.
    destruct (pass_run nxg nyg allow m (wet D) Hm s dg _ ltac:(lia) ltac:(lia) H1 H2) as (s' & dg' & E & H3 & H4).
    + intros x y Ew _ _. now apply iter_land.
    + exists (s', dg'). split; auto. cbn [fst snd]. replace (Z.to_nat (k + 1 - 1)) with (S (Z.to_nat (k - 1))) by lia. auto.
  - rewrite E. cbn [bind]. cbn [snd] in Hdg. replace (1 + num_pass - 1)%Z with num_pass in Hdg by lia.
    set (G := smoothed nxg nyg allow (Z.to_nat num_pass) D) in *. set (nx := (ie - is + 1)%Z). set (ny := (je - js + 1)%Z).
    destruct (nest_inv (fun j i (st : list R * Z) => snd st = ((j - js) * nx + (i - is))%Z /\ zlen (fst st) = (nx * ny)%Z /\
        forall x y, (0 <= x < nx)%Z -> (0 <= y < ny)%Z -> (y * nx + x < (j - js) * nx + (i - is))%Z -> zget (fst st) (y * nx + x) = Some (G (is + x) (js + y))%Z)
      (fun st j i => let '(depth, pos) := st in do v <- oget dg (j * nxg + i) ; do depth <- oset depth pos v ; Ok (depth, (pos + 1)%Z)) js ny is nx (alloc (nx * ny), 0%Z)) as ((out & pos) & E' & _ & L & H).
    + lia.
    + lia.
    + cbn. split; [lia|]. split; [unfold alloc; rewrite zlen_repeat; nia|]. intros; nia.
    + intros j i (d & pos) Rj Ri (Ep & L & H). cbn [fst snd] in *. subst pos. rewrite (fget _ _ _ _ i j _ Hdg) by lia. cbn [bind].
      assert (R : (0 <= (j - js) * nx + (i - is) < zlen d)%Z) by (rewrite L; nia).
      destruct (zset_Some d _ (G i j) R) as (d' & E1). assert (O1 : oset d ((j - js) * nx + (i - is)) (G i j) = Ok d') by (now apply oset_Ok).
      rewrite O1. cbn [bind]. eexists. split; [reflexivity|]. cbn [fst snd]. split; [lia|]. split; [rewrite (zset_len _ _ _ _ E1); auto|].
      intros x y Rx Ry Lt. destruct (Z.eq_dec (y * nx + x) ((j - js) * nx + (i - is))) as [Eq|N].
      * apply rowmajor_inj in Eq; [|lia|lia]. destruct Eq as [-> ->]. rewrite (zget_zset_eq _ _ _ _ E1). do 2 f_equal; lia.
      * rewrite (zget_zset_ne _ _ _ _ _ E1) by auto. apply H; auto; lia.
    + intros j (d & pos) Rj (Ep & L & H). cbn [fst snd] in *. subst pos. split; [lia|]. split; auto. intros x y Rx Ry Lt. apply H; auto. nia.
    + rewrite E'. cbn [bind fst]. exists out. split; [reflexivity|]. split; auto. intros x y Rx Ry. apply H; auto. nia.
Qed.

(** ** What smoothing does *)
Lemma shapiro_avg M D x y a b : (a <= D x y <= b) -> (forall dx dy, (-1 <= dx <= 1)%Z -> (-1 <= dy <= 1)%Z -> M (x + dx)%Z (y + dy)%Z = true -> a <= D (x + dx)%Z (y + dy)%Z <= b) ->
  a <= shapiro M D x y <= b.
Proof.
  intros H0 H. unfold shapiro.
  assert (B : forall dx dy, (-1 <= dx <= 1)%Z -> (-1 <= dy <= 1)%Z -> a <= (if M (x + dx)%Z (y + dy)%Z then D (x + dx)%Z (y + dy)%Z else D x y) <= b).
  { intros dx dy Hx Hy. specialize (H dx dy Hx Hy). destruct (M (x + dx)%Z (y + dy)%Z); auto. }
  pose proof (B 1 0)%Z. pose proof (B (-1) 0)%Z. pose proof (B 0 1)%Z. pose proof (B 0 (-1))%Z. pose proof (B 1 1)%Z. pose proof (B 1 (-1))%Z. pose proof (B (-1) 1)%Z. pose proof (B (-1) (-1))%Z.
  repeat match goal with H : _ -> _ -> _ <= _ <= _ |- _ => specialize (H ltac:(lia) ltac:(lia)) end. lra.
Qed.

Lemma shapiro_pos M D x y : 0 < D x y -> (forall dx dy, (-1 <= dx <= 1)%Z -> (-1 <= dy <= 1)%Z -> M (x + dx)%Z (y + dy)%Z = true -> 0 < D (x + dx)%Z (y + dy)%Z) -> 0 < shapiro M D x y.
Proof.
  intros H0 H. unfold shapiro.
  assert (B : forall dx dy, (-1 <= dx <= 1)%Z -> (-1 <= dy <= 1)%Z -> 0 < (if M (x + dx)%Z (y + dy)%Z then D (x + dx)%Z (y + dy)%Z else D x y)).
  { intros dx dy Hx Hy. specialize (H dx dy Hx Hy). destruct (M (x + dx)%Z (y + dy)%Z); auto. }
  pose proof (B 1 0)%Z. pose proof (B (-1) 0)%Z. pose proof (B 0 1)%Z. pose proof (B 0 (-1))%Z. pose proof (B 1 1)%Z. pose proof (B 1 (-1))%Z. pose proof (B (-1) 1)%Z. pose proof (B (-1) (-1))%Z.
  repeat match goal with H : _ -> _ -> _ < _ |- _ => specialize (H ltac:(lia) ltac:(lia)) end. lra.
Qed.

Section consequences.
Variables (nx ny : Z) (allow : bool) (D : Z -> Z -> R).
Let G n := smoothed nx ny allow n D.
Definition on (x y : Z) := (0 <= x < nx)%Z /\ (0 <= y < ny)%Z.

Lemma G_S n x y : G (S n) x y = smooth nx ny allow (wet D) (G n) x y.
Proof. reflexivity. Qed.

Lemma inside_on x y dx dy : inside nx ny x y = true -> (-1 <= dx <= 1)%Z -> (-1 <= dy <= 1)%Z -> on (x + dx) (y + dy).
Proof. unfold inside, on. rewrite !andb_true_iff, !Z.leb_le, !Z.ltb_lt. lia. Qed.

Lemma G_edge n x y : inside nx ny x y = false -> G n x y = D x y.
Proof. intros E. induction n; [reflexivity|]. rewrite G_S. unfold smooth. rewrite E. auto. Qed.

Lemma G_cap n x y : allow = false -> G n x y <= D x y.
Proof.
  intros E. induction n; [cbn; lra|]. rewrite G_S. unfold smooth. destruct (inside _ _ _ _ && _); auto. rewrite E. pose proof (Rmin_r (shapiro (wet D) (G n) x y) (G n x y)). lra.
Qed.

Lemma G_range n a b : (forall x y, on x y -> wet D x y = true -> a <= D x y <= b) -> forall x y, on x y -> wet D x y = true -> a <= G n x y <= b.
Proof.
  intros H. induction n; [exact H|]. intros x y O W. rewrite G_S. unfold smooth. rewrite W. destruct (inside nx ny x y) eqn:EI; cbn [andb]; auto.
  assert (S : a <= shapiro (wet D) (G n) x y <= b).
  { apply shapiro_avg; auto. intros dx dy Hx Hy Hw. apply IHn; auto. now apply inside_on. }
  specialize (IHn x y O W). destruct allow; auto. unfold Rmin. destruct (Rle_dec _ _); auto.
Qed.

Lemma G_pos n : (forall x y, on x y -> 0 <= D x y) -> forall x y, on x y -> wet D x y = true -> 0 < G n x y.
Proof.
  intros H. induction n.
  - intros x y O W. cbn. specialize (H x y O). unfold wet in W. destruct (Req_EM_T (D x y) 0); [discriminate|lra].
  - intros x y O W. rewrite G_S. unfold smooth. rewrite W. destruct (inside nx ny x y) eqn:EI; cbn [andb]; auto.
    assert (S : 0 < shapiro (wet D) (G n) x y).
    { apply shapiro_pos; auto. intros dx dy Hx Hy Hw. apply IHn; auto. now apply inside_on. }
    specialize (IHn x y O W). destruct allow; auto. unfold Rmin. destruct (Rle_dec _ _); auto.
Qed.
End consequences.
