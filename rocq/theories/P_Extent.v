(** * Proofs about the domain decomposition model *)
From Verif Require Import Base M_Extent.

(** Closed description of the sequence of division starts. *)

(** remaining points after k divisions in the non-symmetric case *)
Fixpoint ns_start (n d : Z) (k : nat) : Z :=
  match k with
  | O => 0
  | S k' => ns_start n d k' + cdiv (n - ns_start n d k') (d - Z.of_nat k')
  end.
(** symmetric case, first half *)
Fixpoint sy_start (n d : Z) (k : nat) : Z :=
  match k with
  | O => 0
  | S k' => sy_start n d k' + cdiv (n - 2 * sy_start n d k') (d - 2 * Z.of_nat k')
  end.

Definition qlo (n d : Z) := n / d.
Definition qhi (n d : Z) := cdiv n d.

Lemma q_facts n d : 1 <= d <= n ->
  1 <= qlo n d /\ qlo n d <= qhi n d <= qlo n d + 1 /\ qlo n d * d <= n <= qhi n d * d.
Proof.
  intros H. unfold qlo, qhi. pose proof (cdiv_spec n d ltac:(lia)).
  pose proof (Z.div_mod n d ltac:(lia)). pose proof (Z.mod_pos_bound n d ltac:(lia)).
  set (q := n / d) in *. set (c := cdiv n d) in *. repeat split; nia.
Qed.

Lemma cdiv_between r m lo hi : 0 < m -> (lo - 1) * m < r <= hi * m -> lo <= cdiv r m <= hi.
Proof. intros Hm H. pose proof (cdiv_spec r m Hm). nia. Qed.

Lemma ns_inv n d k : 1 <= d <= n -> Z.of_nat k <= d ->
  qlo n d * (d - Z.of_nat k) <= n - ns_start n d k <= qhi n d * (d - Z.of_nat k).
Proof.
  intros H. pose proof (q_facts n d H) as (Hq1 & Hq2 & Hq3).
  induction k as [|k IH]; intros Hk.
  - cbn [ns_start]. rewrite Z.sub_0_r, Z.sub_0_r. exact Hq3.
  - specialize (IH ltac:(lia)). cbn [ns_start].
    set (r := n - ns_start n d k) in *. set (m := d - Z.of_nat k) in *.
    assert (0 < m) by lia. pose proof (cdiv_spec r m ltac:(lia)).
    replace (d - Z.of_nat (S k)) with (m - 1) by lia.
    replace (n - (ns_start n d k + cdiv r m)) with (r - cdiv r m) by lia.
    set (c := cdiv r m) in *. set (q := qlo n d) in *. set (h := qhi n d) in *.
    clearbody c q h r m. clear -H0 H1 Hq1 Hq2 IH.
    assert (q <= c) by nia. assert (c <= h) by nia.
    destruct (Z.eq_dec c q) as [->|]; [|assert (c = q + 1 /\ h = q + 1) by lia; split; nia].
    split; [nia|]. destruct (Z.eq_dec h q) as [->|]; [nia|]. assert (h = q + 1) by lia. subst. nia.
Qed.

Lemma ns_size n d k : 1 <= d <= n -> Z.of_nat k < d ->
  qlo n d <= ns_start n d (S k) - ns_start n d k <= qhi n d.
Proof.
  intros H Hk. pose proof (ns_inv n d k H ltac:(lia)) as Hi.
  pose proof (q_facts n d H) as (Hq1 & Hq2 & Hq3). cbn [ns_start].
  set (r := n - ns_start n d k) in *. set (m := d - Z.of_nat k) in *.
  pose proof (cdiv_between r m (qlo n d) (qhi n d) ltac:(lia)). nia.
Qed.

Lemma ns_last n d : 1 <= d <= n -> ns_start n d (Z.to_nat d) = n.
Proof.
  intros H. pose proof (ns_inv n d (Z.to_nat d) H ltac:(lia)) as Hi.
  rewrite Z2Nat.id in Hi by lia. lia.
Qed.

(** The symmetric class. *)
Lemma symmetrize_cases n d : symmetrize n d = true ->
  n mod 2 = d mod 2 \/ (d mod 2 = 1 /\ n mod 2 = 0 /\ d < n / 2).
Proof.
  unfold symmetrize. rewrite !Zodd_mod.
  pose proof (Z.mod_pos_bound n 2 ltac:(lia)). pose proof (Z.mod_pos_bound d 2 ltac:(lia)).
  unfold Zeq_bool. 
  destruct (Z.compare_spec (d mod 2) 1), (Z.compare_spec (n mod 2) 1),
    (Z.ltb_spec d (n / 2)); simpl; intros; try discriminate; try lia.
Qed.

Definition sy_ok (n d m r : Z) : Prop :=
  qlo n d * m - 1 <= r <= qhi n d * m
  /\ (r = qlo n d * m - 1 -> 2 <= qlo n d)
  /\ r mod 2 = n mod 2.

Lemma sy_step n d m r :
  1 <= d <= n -> symmetrize n d = true -> 2 <= m -> m mod 2 = d mod 2 ->
  sy_ok n d m r ->
  qlo n d <= cdiv r m <= qhi n d /\ 2 * cdiv r m <= r /\ sy_ok n d (m - 2) (r - 2 * cdiv r m).
Proof.
  intros H Hs Hm Hpar (Hb & H2 & Hp).
  pose proof (q_facts n d H) as (Hq1 & Hq2 & Hq3).
  pose proof (cdiv_spec r m ltac:(lia)) as Hc.
  pose proof (symmetrize_cases n d Hs) as Hcase.
  assert (Hq : n mod 2 = 0 -> d mod 2 = 1 -> 2 <= qlo n d).
  { intros. destruct Hcase as [|(_ & _ & Hlt)]; [lia|].
    unfold qlo. pose proof (Z.div_mod n 2 ltac:(lia)). 
    apply Z.div_le_lower_bound; lia. }
  unfold sy_ok. set (c := cdiv r m) in *. set (q := qlo n d) in *. set (h := qhi n d) in *.
  clearbody c q h.
  assert (q <= c) by nia. assert (c <= h) by nia.
  assert (Hne : r = q * m + 1 -> 2 <= q).
  { intros ->. destruct (Z.eq_dec q 1) as [->|]; [|lia]. exfalso.
    destruct Hcase as [|(Ho & He & Hlt)]; [|specialize (Hq He Ho); lia].
    pose proof (Z.div_mod m 2 ltac:(lia)). pose proof (Z.div_mod (1*m+1) 2 ltac:(lia)). lia. }
  assert (Hr2 : m = 2 -> r mod 2 = 0).
  { intros ->. rewrite Hp. destruct Hcase as [Hc1|(Ho & _)]; [|simpl in Hpar; lia].
    rewrite Hc1, <- Hpar. reflexivity. }
  assert (Hmod : (r - 2 * c) mod 2 = n mod 2).
  { rewrite <- Hp. replace (r - 2 * c) with (r + (- c) * 2) by lia. apply Z.mod_add. lia. }
  assert (Hlow : q * (m - 2) - 1 <= r - 2 * c).
  { destruct (Z.eq_dec c q) as [->|]; [nia|]. assert (c = q + 1) by lia. subst c. nia. }
  repeat split; auto.
  - destruct (Z.eq_dec m 2) as [->|].
    + specialize (Hr2 eq_refl). pose proof (Z.div_mod r 2 ltac:(lia)). lia.
    + nia.
  - destruct (Z.eq_dec h q) as [->|]; [nia|]. assert (h = q + 1) by lia. subst h. nia.
  - intros He. destruct (Z.eq_dec c q) as [->|]; [apply H2; nia|].
    assert (c = q + 1) by lia. subst c. apply Hne. nia.
Qed.

Lemma sy_inv n d k : 1 <= d <= n -> symmetrize n d = true -> 2 * Z.of_nat k <= d ->
  sy_ok n d (d - 2 * Z.of_nat k) (n - 2 * sy_start n d k).
Proof.
  intros H Hs. pose proof (q_facts n d H) as (Hq1 & Hq2 & Hq3).
  induction k as [|k IH]; intros Hk.
  - unfold sy_ok. cbn [sy_start]. rewrite !Z.sub_0_r. repeat split; nia.
  - specialize (IH ltac:(lia)).
    pose proof (sy_step n d (d - 2 * Z.of_nat k) (n - 2 * sy_start n d k) H Hs ltac:(lia)) as Hstep.
    destruct Hstep as (_ & _ & Hok); auto.
    + replace (d - 2 * Z.of_nat k) with (d + (- Z.of_nat k) * 2) by lia. apply Z.mod_add; lia.
    + cbn [sy_start].
      replace (d - 2 * Z.of_nat (S k)) with (d - 2 * Z.of_nat k - 2) by lia.
      set (c := cdiv _ _) in *.
      replace (n - 2 * (sy_start n d k + c)) with (n - 2 * sy_start n d k - 2 * c) by lia.
      exact Hok.
Qed.

Lemma sy_size n d k : 1 <= d <= n -> symmetrize n d = true -> 2 * (Z.of_nat k + 1) <= d ->
  qlo n d <= sy_start n d (S k) - sy_start n d k <= qhi n d
  /\ 2 * sy_start n d (S k) <= n.
Proof.
  intros H Hs Hk. pose proof (sy_inv n d k H Hs ltac:(lia)) as Hok.
  pose proof (sy_step n d (d - 2 * Z.of_nat k) (n - 2 * sy_start n d k) H Hs ltac:(lia)) as Hst.
  destruct Hst as (Ha & Hb & _); auto.
  - replace (d - 2 * Z.of_nat k) with (d + (- Z.of_nat k) * 2) by lia. apply Z.mod_add; lia.
  - cbn [sy_start]. lia.
Qed.

(** The middle division of an odd count. *)
Lemma sy_mid n d k : 1 <= d <= n -> symmetrize n d = true -> 2 * Z.of_nat k + 1 = d ->
  qlo n d - 1 <= n - 2 * sy_start n d k <= qhi n d /\ 1 <= n - 2 * sy_start n d k.
Proof.
  intros H Hs Hk. pose proof (sy_inv n d k H Hs ltac:(lia)) as (Ha & Hb & _).
  replace (d - 2 * Z.of_nat k) with 1 in * by lia.
  pose proof (q_facts n d H). lia.
Qed.

Lemma sy_end_even n d k : 1 <= d <= n -> symmetrize n d = true -> 2 * Z.of_nat k = d ->
  n = 2 * sy_start n d k.
Proof.
  intros H Hs Hk. pose proof (sy_inv n d k H Hs ltac:(lia)) as (Ha & Hb & Hc).
  replace (d - 2 * Z.of_nat k) with 0 in * by lia.
  assert (n mod 2 = 0).
  { destruct (symmetrize_cases n d Hs) as [He|(Ho & _)].
    - rewrite He, <- Hk, Z.mul_comm. apply Z.mod_mul; lia.
    - rewrite <- Hk, Z.mul_comm, Z.mod_mul in Ho; lia. }
  assert (n - 2 * sy_start n d k <> -1).
  { intros E. rewrite E in Hc. change (-1 mod 2) with 1 in Hc. lia. }
  lia.
Qed.

(** Start of division j, all cases: position j of 0..d *)
Definition start_of (n d : Z) (j : Z) : Z :=
  if symmetrize n d then
    (if 2 * j <=? d then sy_start n d (Z.to_nat j)
     else n - sy_start n d (Z.to_nat (d - j)))
  else ns_start n d (Z.to_nat j).

Definition ext_ok (n d : Z) (k : Z) (st : ext_state) : Prop :=
  d <= zlen (x_ibegin st) /\ d <= zlen (x_iend st)
  /\ x_is st = start_of n d k
  /\ (forall j, 0 <= j < k -> zget (x_ibegin st) j = Some (start_of n d j)
                            /\ zget (x_iend st) j = Some (start_of n d (j + 1) - 1))
  /\ (if symmetrize n d then
        (forall j, 0 <= j < k -> j < d - 1 - j ->
           zget (x_ibegin st) (d - 1 - j) = Some (start_of n d (d - 1 - j))
           /\ zget (x_iend st) (d - 1 - j) = Some (start_of n d (d - j) - 1))
        /\ (2 * k <= d -> 0 < k -> x_imax st = n - 1 - start_of n d k /\ x_ndmax st = d - k)
      else 0 < k -> x_imax st = n - 1 /\ x_ndmax st = d).

Lemma start_of_0 n d : 1 <= d <= n -> start_of n d 0 = 0.
Proof.
  intros H. unfold start_of. destruct (symmetrize n d); auto.
  destruct (Z.leb_spec (2 * 0) d); [reflexivity|lia].
Qed.
Lemma start_of_d n d : 1 <= d <= n -> start_of n d d = n.
Proof.
  intros H. unfold start_of. destruct (symmetrize n d) eqn:Hs.
  - destruct (Z.leb_spec (2 * d) d); [lia|]. rewrite Z.sub_diag. simpl. lia.
  - apply ns_last; auto.
Qed.

(** symmetric positions *)
Lemma start_of_mirror n d j : 1 <= d <= n -> symmetrize n d = true -> 0 <= j <= d ->
  start_of n d j + start_of n d (d - j) = n.
Proof.
  intros H Hs Hj. unfold start_of. rewrite Hs.
  destruct (Z.leb_spec (2 * j) d), (Z.leb_spec (2 * (d - j)) d).
  - assert (2 * Z.of_nat (Z.to_nat j) = d) as Hd by lia.
    replace (d - j) with j by lia. pose proof (sy_end_even n d _ H Hs Hd). lia.
  - replace (d - (d - j)) with j by lia. lia.
  - lia.
  - lia.
Qed.

Lemma start_of_size n d j : 1 <= d <= n -> 0 <= j < d ->
  qlo n d - (if symmetrize n d then 1 else 0) <= start_of n d (j + 1) - start_of n d j <= qhi n d
  /\ 1 <= start_of n d (j + 1) - start_of n d j.
Proof.
  intros H Hj. pose proof (q_facts n d H) as (Hq1 & Hq2 & Hq3).
  destruct (symmetrize n d) eqn:Hs.
  - assert (Hfirst : forall i, 0 <= i -> 2 * (i + 1) <= d ->
        qlo n d <= start_of n d (i + 1) - start_of n d i <= qhi n d).
    { intros i Hi Hi2. pose proof (sy_size n d (Z.to_nat i) H Hs ltac:(lia)) as [Ha _].
      unfold start_of. rewrite Hs.
      destruct (Z.leb_spec (2 * (i + 1)) d); [|lia].
      destruct (Z.leb_spec (2 * i) d); [|lia].
      replace (Z.to_nat (i + 1)) with (S (Z.to_nat i)) by lia. exact Ha. }
    destruct (Z.le_gt_cases (2 * (j + 1)) d) as [Hc|Hc].
    + pose proof (Hfirst j ltac:(lia) Hc). lia.
    + pose proof (start_of_mirror n d j H Hs ltac:(lia)) as M1.
      pose proof (start_of_mirror n d (j + 1) H Hs ltac:(lia)) as M2.
      destruct (Z.eq_dec (2 * j + 1) d) as [Hm|Hm].
      * pose proof (sy_mid n d (Z.to_nat j) H Hs ltac:(lia)) as [Ha Hb].
        replace (d - (j + 1)) with j in M2 by lia.
        assert (start_of n d j = sy_start n d (Z.to_nat j)) as E.
        { unfold start_of. rewrite Hs. destruct (Z.leb_spec (2 * j) d); [auto|lia]. }
        rewrite <- E in *. lia.
      * pose proof (Hfirst (d - (j + 1)) ltac:(lia) ltac:(lia)) as Hf.
        replace (d - (j + 1) + 1) with (d - j) in Hf by lia. lia.
  - pose proof (ns_size n d (Z.to_nat j) H ltac:(lia)) as Ha.
    unfold start_of. rewrite Hs. replace (Z.to_nat (j + 1)) with (S (Z.to_nat j)) by lia. lia.
Qed.

Lemma extent_step_ok n d k st :
  1 <= d <= n -> 0 <= k < d -> ext_ok n d k st ->
  exists st', extent_step n d st k = Ok st' /\ ext_ok n d (k + 1) st'.
Proof.
  intros H Hk (Lb & Le & His & Hdone & Hrest).
  pose proof (start_of_size n d k H Hk) as [Hsz Hpos].
  pose proof (start_of_d n d H) as Hend.
  unfold extent_step. rewrite His.
  set (imax := if k =? 0 then n - 1 else x_imax st).
  set (ndmax := if k =? 0 then d else x_ndmax st).
  pose proof (start_of_0 n d H) as H0s.
  assert (Hfin : forall (b : bool), ((k =? d - 1) && negb (start_of n d (k + 1) - 1 =? n - 1)) = b -> b = false).
  { intros b <-. destruct (Z.eqb_spec k (d - 1)); [|reflexivity]. subst k.
    replace (d - 1 + 1) with d by lia. rewrite Hend, Z.eqb_refl. reflexivity. }
  destruct (symmetrize n d) eqn:Hs.
  - destruct Hrest as (Hmir & Hmax).
    destruct (Z.ltb_spec k ((d - 1) / 2 + 1)) as [Hhalf|Hhalf].
    + (* first half *)
      assert (Hk2 : 2 * k <= d - 1).
      { pose proof (Z.div_mod (d - 1) 2 ltac:(lia)). pose proof (Z.mod_pos_bound (d - 1) 2 ltac:(lia)). lia. }
      assert (Him : imax = n - 1 - start_of n d k /\ ndmax = d - k).
      { unfold imax, ndmax. destruct (Z.eqb_spec k 0) as [->|]; [rewrite H0s; lia|]. apply Hmax; lia. }
      destruct Him as [-> ->].
      assert (Hsk : start_of n d k = sy_start n d (Z.to_nat k)).
      { unfold start_of. rewrite Hs. destruct (Z.leb_spec (2 * k) d); [auto|lia]. }
      assert (Hie : start_of n d k + cdiv (n - 1 - start_of n d k - start_of n d k + 1) (d - k - k) - 1
                    = start_of n d (k + 1) - 1).
      { destruct (Z.eq_dec (2 * k + 1) d) as [Hm|Hm].
        - replace (d - k - k) with 1 by lia.
          pose proof (start_of_mirror n d (k + 1) H Hs ltac:(lia)) as M.
          replace (d - (k + 1)) with k in M by lia.
          rewrite (cdiv_unique _ 1 (n - 2 * start_of n d k)); lia.
        - assert (start_of n d (k + 1) = sy_start n d (S (Z.to_nat k))) as ->.
          { unfold start_of. rewrite Hs. destruct (Z.leb_spec (2 * (k + 1)) d); [|lia].
            f_equal. lia. }
          cbn [sy_start]. rewrite <- Hsk.
          replace (n - 1 - start_of n d k - start_of n d k + 1) with (n - 2 * start_of n d k) by lia.
          replace (d - 2 * Z.of_nat (Z.to_nat k)) with (d - k - k) by lia. lia. }
      rewrite Hie.
      destruct (Z.ltb_spec k (d - 1 - k)) as [Hlt|Hge]; cbn [andb].
      * (* a mirror division exists *)
        pose proof (start_of_mirror n d k H Hs ltac:(lia)) as M1.
        pose proof (start_of_mirror n d (k + 1) H Hs ltac:(lia)) as M2.
        replace (d - (k + 1)) with (d - 1 - k) in M2 by lia.
        assert (Hle : 2 * start_of n d (k + 1) <= n).
        { pose proof (sy_size n d (Z.to_nat k) H Hs ltac:(lia)) as [_ Hb].
          assert (start_of n d (k + 1) = sy_start n d (S (Z.to_nat k))) as ->; [|lia].
          unfold start_of. rewrite Hs. destruct (Z.leb_spec (2 * (k + 1)) d); [|lia]. f_equal. lia. }
        rewrite Z.max_l by lia. rewrite Z.max_l by lia.
        replace (0 + (n - 1) - (start_of n d (k + 1) - 1)) with (start_of n d (d - 1 - k)) by lia.
        replace (0 + (n - 1) - start_of n d k) with (start_of n d (d - k) - 1) by lia.
        destruct (zset_Some (x_ibegin st) (d - 1 - k) (start_of n d (d - 1 - k)) ltac:(lia)) as [ib1 Hib1].
        destruct (zset_Some (x_iend st) (d - 1 - k) (start_of n d (d - k) - 1) ltac:(lia)) as [ie1 Hie1].
        unfold oset at 1. rewrite Hib1. cbn [bind]. unfold oset at 1. rewrite Hie1. cbn [bind].
        unfold oget. rewrite (zget_zset_eq _ _ _ _ Hib1). cbn [bind].
        pose proof (zset_len _ _ _ _ Hib1) as L1. pose proof (zset_len _ _ _ _ Hie1) as L2.
        destruct (zset_Some ib1 k (start_of n d k) ltac:(lia)) as [ib2 Hib2].
        destruct (zset_Some ie1 k (start_of n d (k + 1) - 1) ltac:(lia)) as [ie2 Hie2].
        unfold oset. rewrite Hib2. cbn [bind]. rewrite Hie2. cbn [bind].
        destruct (Z.ltb_spec (start_of n d (k + 1) - 1) (start_of n d k)) as [|_]; [lia|].
        rewrite (Hfin _ eq_refl).
        eexists; split; [reflexivity|]. unfold ext_ok. cbn [x_is x_imax x_ndmax x_ibegin x_iend].
        rewrite Hs. rewrite (zset_len _ _ _ _ Hib2), (zset_len _ _ _ _ Hie2).
        split; [lia|]. split; [lia|]. split; [lia|]. split; [|split].
        -- intros j Hj. destruct (Z.eq_dec j k) as [->|Hne].
           ++ now rewrite (zget_zset_eq _ _ _ _ Hib2), (zget_zset_eq _ _ _ _ Hie2).
           ++ rewrite (zget_zset_ne _ _ _ _ _ Hib2), (zget_zset_ne _ _ _ _ _ Hie2) by lia.
              rewrite (zget_zset_ne _ _ _ _ _ Hib1), (zget_zset_ne _ _ _ _ _ Hie1) by lia.
              apply Hdone; lia.
        -- intros j Hj Hj2.
           rewrite (zget_zset_ne _ _ _ _ _ Hib2), (zget_zset_ne _ _ _ _ _ Hie2) by lia.
           destruct (Z.eq_dec j k) as [->|Hne].
           ++ now rewrite (zget_zset_eq _ _ _ _ Hib1), (zget_zset_eq _ _ _ _ Hie1).
           ++ rewrite (zget_zset_ne _ _ _ _ _ Hib1), (zget_zset_ne _ _ _ _ _ Hie1) by lia.
              apply Hmir; lia.
        -- intros _ _. lia.
      * (* middle division *)
        cbn [bind].
        destruct (zset_Some (x_ibegin st) k (start_of n d k) ltac:(lia)) as [ib2 Hib2].
        destruct (zset_Some (x_iend st) k (start_of n d (k + 1) - 1) ltac:(lia)) as [ie2 Hie2].
        unfold oset. rewrite Hib2. cbn [bind]. rewrite Hie2. cbn [bind].
        destruct (Z.ltb_spec (start_of n d (k + 1) - 1) (start_of n d k)) as [|_]; [lia|].
        rewrite (Hfin _ eq_refl).
        eexists; split; [reflexivity|]. unfold ext_ok. cbn [x_is x_imax x_ndmax x_ibegin x_iend].
        rewrite Hs. rewrite (zset_len _ _ _ _ Hib2), (zset_len _ _ _ _ Hie2).
        split; [lia|]. split; [lia|]. split; [lia|]. split; [|split].
        -- intros j Hj. destruct (Z.eq_dec j k) as [->|Hne].
           ++ now rewrite (zget_zset_eq _ _ _ _ Hib2), (zget_zset_eq _ _ _ _ Hie2).
           ++ rewrite (zget_zset_ne _ _ _ _ _ Hib2), (zget_zset_ne _ _ _ _ _ Hie2) by lia.
              apply Hdone; lia.
        -- intros j Hj Hj2. 
           rewrite (zget_zset_ne _ _ _ _ _ Hib2), (zget_zset_ne _ _ _ _ _ Hie2) by lia.
           apply Hmir; lia.
        -- intros; lia.
    + (* second half: read back *)
      assert (Hk2 : d - 1 < 2 * k).
      { pose proof (Z.div_mod (d - 1) 2 ltac:(lia)). pose proof (Z.mod_pos_bound (d - 1) 2 ltac:(lia)). lia. }
      destruct (Hmir (d - 1 - k) ltac:(lia) ltac:(lia)) as [Hb He].
      replace (d - 1 - (d - 1 - k)) with k in * by lia.
      replace (d - (d - 1 - k)) with (k + 1) in * by lia.
      unfold oget. rewrite Hb, He. cbn [bind].
      destruct (zset_Some (x_ibegin st) k (start_of n d k) ltac:(lia)) as [ib2 Hib2].
      destruct (zset_Some (x_iend st) k (start_of n d (k + 1) - 1) ltac:(lia)) as [ie2 Hie2].
      unfold oset. rewrite Hib2. cbn [bind]. rewrite Hie2. cbn [bind].
      destruct (Z.ltb_spec (start_of n d (k + 1) - 1) (start_of n d k)) as [|_]; [lia|].
      rewrite (Hfin _ eq_refl).
      eexists; split; [reflexivity|]. unfold ext_ok. cbn [x_is x_imax x_ndmax x_ibegin x_iend].
      rewrite Hs. rewrite (zset_len _ _ _ _ Hib2), (zset_len _ _ _ _ Hie2).
      split; [lia|]. split; [lia|]. split; [lia|]. split; [|split].
      * intros j Hj. destruct (Z.eq_dec j k) as [->|Hne].
        -- now rewrite (zget_zset_eq _ _ _ _ Hib2), (zget_zset_eq _ _ _ _ Hie2).
        -- rewrite (zget_zset_ne _ _ _ _ _ Hib2), (zget_zset_ne _ _ _ _ _ Hie2) by lia.
           apply Hdone; lia.
      * intros j Hj Hj2. destruct (Z.eq_dec (d - 1 - j) k) as [Hq|Hne].
        -- rewrite Hq. replace (d - j) with (k + 1) by lia.
           now rewrite (zget_zset_eq _ _ _ _ Hib2), (zget_zset_eq _ _ _ _ Hie2).
        -- rewrite (zget_zset_ne _ _ _ _ _ Hib2), (zget_zset_ne _ _ _ _ _ Hie2) by lia.
           apply Hmir; lia.
      * intros; lia.
  - (* not symmetric *)
    assert (Him : imax = n - 1 /\ ndmax = d).
    { unfold imax, ndmax. destruct (Z.eqb_spec k 0) as [->|]; [lia|]. apply Hrest; lia. }
    destruct Him as [-> ->]. rewrite andb_false_r.
    assert (Hie : start_of n d k + cdiv (n - 1 - start_of n d k + 1) (d - k) - 1
                  = start_of n d (k + 1) - 1).
    { unfold start_of. rewrite Hs. replace (Z.to_nat (k + 1)) with (S (Z.to_nat k)) by lia.
      cbn [ns_start]. rewrite Z2Nat.id by lia. do 2 f_equal. f_equal. lia. }
    rewrite Hie.
    match goal with |- exists st', bind ?e _ = _ /\ _ =>
      replace e with (Ok (start_of n d k, start_of n d (k + 1) - 1, n - 1, d, x_ibegin st, x_iend st))
        by (destruct (k <? (d - 1) / 2 + 1); reflexivity) end.
    cbn [bind].
    destruct (zset_Some (x_ibegin st) k (start_of n d k) ltac:(lia)) as [ib2 Hib2].
    destruct (zset_Some (x_iend st) k (start_of n d (k + 1) - 1) ltac:(lia)) as [ie2 Hie2].
    unfold oset. rewrite Hib2. cbn [bind]. rewrite Hie2. cbn [bind].
    destruct (Z.ltb_spec (start_of n d (k + 1) - 1) (start_of n d k)) as [|_]; [lia|].
    rewrite (Hfin _ eq_refl).
    eexists; split; [reflexivity|]. unfold ext_ok. cbn [x_is x_imax x_ndmax x_ibegin x_iend].
    rewrite Hs. rewrite (zset_len _ _ _ _ Hib2), (zset_len _ _ _ _ Hie2).
    split; [lia|]. split; [lia|]. split; [lia|]. split; [|lia].
    intros j Hj. destruct (Z.eq_dec j k) as [->|Hne].
    + now rewrite (zget_zset_eq _ _ _ _ Hib2), (zget_zset_eq _ _ _ _ Hie2).
    + rewrite (zget_zset_ne _ _ _ _ _ Hib2), (zget_zset_ne _ _ _ _ _ Hie2) by lia.
      apply Hdone; lia.
Qed.

(** Main characterisation. *)
Lemma compute_extent_spec n d ib0 ie0 :
  1 <= d <= n -> d <= zlen ib0 -> d <= zlen ie0 ->
  exists ib ie, mpp_compute_extent n d ib0 ie0 = Ok (ib, ie)
    /\ forall j, 0 <= j < d -> zget ib j = Some (start_of n d j)
                             /\ zget ie j = Some (start_of n d (j + 1) - 1).
Proof.
  intros H Lb Le. unfold mpp_compute_extent.
  destruct (Z.ltb_spec n d); [lia|].
  destruct (ofor_inv (ext_ok n d) (extent_step n d) 0 d (ExtSt 0 0 0 ib0 ie0)) as (st & Hf & Hok).
  - lia.
  - unfold ext_ok. cbn [x_is x_imax x_ndmax x_ibegin x_iend].
    repeat split; auto; try lia.
    + now rewrite start_of_0.
    + destruct (symmetrize n d); [split; intros; lia|intros; lia].
  - intros k st Hk Hok. apply extent_step_ok; auto; lia.
  - rewrite Hf. cbn [bind]. do 2 eexists; split; [reflexivity|].
    destruct Hok as (_ & _ & _ & Hd & _). intros j Hj. apply Hd. lia.
Qed.

Lemma start_of_mono n d i j : 1 <= d <= n -> 0 <= i <= j -> j <= d -> start_of n d i + (j - i) <= start_of n d j.
Proof.
  intros H Hij Hj. remember (Z.to_nat (j - i)) as k eqn:Hk. revert j Hij Hj Hk.
  induction k as [|k IH]; intros j Hij Hj Hk.
  - replace j with i by lia. lia.
  - specialize (IH (j - 1) ltac:(lia) ltac:(lia) ltac:(lia)).
    pose proof (start_of_size n d (j - 1) H ltac:(lia)) as [_ Hp].
    replace (j - 1 + 1) with j in Hp by lia. lia.
Qed.

Lemma start_of_cover n d x : 1 <= d <= n -> 0 <= x < n ->
  exists j, 0 <= j < d /\ start_of n d j <= x < start_of n d (j + 1).
Proof.
  intros H Hx.
  assert (forall k : nat, Z.of_nat k <= d -> x < start_of n d (Z.of_nat k) ->
     exists j, 0 <= j < Z.of_nat k /\ start_of n d j <= x < start_of n d (j + 1)) as Hind.
  { induction k as [|k IH]; intros Hk Hlt.
    - rewrite start_of_0 in Hlt by auto. lia.
    - destruct (Z.lt_ge_cases x (start_of n d (Z.of_nat k))) as [Hc|Hc].
      + destruct (IH ltac:(lia) Hc) as (j & Hj & Hj2). exists j. split; [lia|auto].
      + exists (Z.of_nat k). split; [lia|]. split; [auto|].
        now replace (Z.of_nat k + 1) with (Z.of_nat (S k)) by lia. }
  destruct (Hind (Z.to_nat d) ltac:(lia)) as (j & Hj & Hj2).
  - rewrite Z2Nat.id by lia. rewrite start_of_d by auto. lia.
  - exists j. split; [lia|auto].
Qed.

Lemma start_of_unique n d x i j : 1 <= d <= n -> 0 <= i < d -> 0 <= j < d ->
  start_of n d i <= x < start_of n d (i + 1) -> start_of n d j <= x < start_of n d (j + 1) -> i = j.
Proof.
  intros H Hi Hj H1 H2.
  destruct (Z.lt_trichotomy i j) as [Hc|[Hc|Hc]]; auto.
  - pose proof (start_of_mono n d (i + 1) j H ltac:(lia) ltac:(lia)). lia.
  - pose proof (start_of_mono n d (j + 1) i H ltac:(lia) ltac:(lia)). lia.
Qed.

(** Layout *)
Lemma layout_search_spec ndivs idiv fuel :
  1 <= ndivs -> 1 <= idiv -> (Z.to_nat idiv <= fuel + 1)%nat ->
  exists i, layout_search ndivs fuel idiv = Ok i /\ 1 <= i <= idiv /\ ndivs mod i = 0
    /\ forall k, i < k <= idiv -> ndivs mod k <> 0.
Proof.
  intros Hn. revert idiv. induction fuel as [|fuel IH]; intros idiv Hi Hf; cbn [layout_search].
  - assert (idiv = 1) by lia. subst. simpl (1 =? 0). rewrite Z.mod_1_r. cbn.
    exists 1. repeat split; auto; try lia.
  - destruct (Z.eqb_spec idiv 0); [lia|].
    destruct (Z.eqb_spec (ndivs mod idiv) 0) as [He|He].
    + exists idiv. repeat split; auto; lia.
    + destruct (Z.eq_dec idiv 1) as [->|]; [rewrite Z.mod_1_r in He; lia|].
      destruct (IH (idiv - 1) ltac:(lia) ltac:(lia)) as (i & E & Hr & Hm & Hmax).
      exists i. repeat split; auto; try lia. intros k Hk.
      destruct (Z.eq_dec k idiv) as [->|]; auto. apply Hmax; lia.
Qed.

Lemma define_layout_spec ndivs idiv0 :
  1 <= ndivs ->
  exists i j, mpp_define_layout ndivs idiv0 = Ok (i, j) /\ 1 <= i /\ 1 <= j /\ i * j = ndivs
    /\ i <= Z.max 1 idiv0
    /\ forall k, i < k <= Z.max 1 idiv0 -> ~ (k | ndivs).
Proof.
  intros Hn. unfold mpp_define_layout.
  set (s := if 1 <? idiv0 then idiv0 else 1).
  assert (s = Z.max 1 idiv0) as Hs by (unfold s; destruct (Z.ltb_spec 1 idiv0); lia).
  destruct (layout_search_spec ndivs s (Z.to_nat s) Hn ltac:(lia) ltac:(lia)) as (i & E & Hr & Hm & Hmax).
  rewrite E. cbn [bind].
  pose proof (Z.div_exact ndivs i ltac:(lia)) as [_ Hd]. specialize (Hd Hm).
  exists i, (ndivs / i). repeat split; auto; try lia.
  - intros k Hk Hdiv. apply (Hmax k); [lia|]. apply Z.mod_divide; [lia|auto].
Qed.
