From Coq Require Import ZArith List Bool Lia.
From Verif Require Import Base Loops M_GridHalo.
Open Scope Z_scope.

Section Good.
Context {A : Type} (G : Z -> A) (L : Z).
(** The places [P] hold what they hold in the end. *)
Definition good (P : Z -> Prop) (d : list A) : Prop := zlen d = L /\ forall x, P x -> zget d x = Some (G x).

Lemma good_store P d y v : good P d -> 0 <= y < L -> v = G y ->
  exists d', oset d y v = Ok d' /\ good (fun x => P x \/ x = y) d'.
Proof.
  intros [HL H] Hy ->. destruct (zset_Some d y (G y) ltac:(lia)) as [d' E]. exists d'. split; [now apply oset_Ok|].
  split; [now rewrite (zset_len _ _ _ _ E)|]. intros x [Hx| ->]; [|exact (zget_zset_eq _ _ _ _ E)].
  destruct (Z.eq_dec y x) as [->|N]; [exact (zget_zset_eq _ _ _ _ E)|]. rewrite (zget_zset_ne _ _ _ _ _ E N). auto.
Qed.

Lemma good_loop P Q lo n body d : 0 <= n -> good P d ->
  (forall k d' P', lo <= k < lo + n -> good P' d' -> exists d'', body d' k = Ok d'' /\ good (fun x => P' x \/ Q k x) d'') ->
  exists d', ofor lo n body d = Ok d' /\ good (fun x => P x \/ exists k, lo <= k < lo + n /\ Q k x) d'.
Proof.
  intros Hn H S.
  destruct (ofor_inv (fun m d' => good (fun x => P x \/ exists k, lo <= k < m /\ Q k x) d') body lo n d Hn) as (d' & E & K).
  - destruct H as [HL H]. split; auto. intros x [Hx|(k & Hk & _)]; [auto|lia].
  - intros k d' Hk K. destruct (S k d' _ Hk K) as (d'' & E & HL & K'). exists d''. split; auto. split; auto.
    intros x [Hx|(m & Hm & Hq)]; apply K'; auto. destruct (Z.eq_dec m k) as [->|N]; auto. left. right. exists m. split; auto. lia.
  - exists d'. auto.
Qed.

Lemma good_weaken (P P' : Z -> Prop) d : good P d -> (forall x, P' x -> P x) -> good P' d.
Proof. intros [HL H] I. split; auto. Qed.
End Good.

(** What is read at a place of an array. *)
Definition rd {A} (missing : A) (a : list A) (x : Z) : A := match zget a x with Some v => v | None => missing end.
Lemma oget_rd {A} (missing : A) a x : 0 <= x < zlen a -> oget a x = Ok (rd missing a x).
Proof. intros H. destruct (zget_in_range a x H) as [v E]. unfold oget, rd. now rewrite E. Qed.
Lemma zget_rd {A} (missing : A) a x : 0 <= x < zlen a -> zget a x = Some (rd missing a x).
Proof. intros H. destruct (zget_in_range a x H) as [v E]. unfold rd. now rewrite E. Qed.

(** The array at the end, by row and column. *)
Definition final {A} (missing : A) (n ioff joff t : Z) (a1 a2 : list A) (j i : Z) : A :=
  let w := n + ioff in let h := n + joff in
  let odd := Z.rem t 2 =? 1 in
  let g1 m x := rd missing a1 (m * (w * h) + x) in let g2 m x := rd missing a2 (m * (w * h) + x) in
  let inj := (1 <=? j) && (j <=? h) in let ini := (1 <=? i) && (i <=? w) in
  if inj && ini then g1 t ((j - 1) * w + (i - 1))
  else if inj && (i =? 0) then
    if odd then g1 (Z.rem (t + 5) 6) ((j - 1) * w + (n - 1)) else g2 (Z.rem (t + 4) 6) ((n - 1) * w + (h - j))
  else if inj && (i =? w + 1) then
    if odd then g2 (Z.rem (t + 8) 6) (ioff * w + (h - j)) else g1 (Z.rem (t + 7) 6) ((j - 1) * w + ioff)
  else if ini && (j =? 0) then
    if odd then g2 (Z.rem (t + 4) 6) ((w - i) * h + (n - 1)) else g1 (Z.rem (t + 5) 6) ((n - 1) * w + (i - 1))
  else if ini && (j =? h + 1) then
    if odd then g1 (Z.rem (t + 7) 6) (joff * w + (i - 1)) else g2 (Z.rem (t + 8) 6) ((w - i) * h + joff)
  else missing.

Lemma mul6 m N x : 0 <= m < 6 -> 0 <= x < N -> 0 <= m * N + x < 6 * N.
Proof. intros. nia. Qed.

Section Run.
Context {A : Type} (missing : A) (n ioff joff t : Z) (a1 a2 : list A).
Let w := n + ioff.
Let h := n + joff.
Hypothesis Hn : 2 <= n.
Hypothesis Hi : 0 <= ioff <= 1.
Hypothesis Hj : 0 <= joff <= 1.
Hypothesis Ht : 0 <= t < 6.
Hypothesis H1 : 6 * (w * h) <= zlen a1.
Hypothesis H2 : 6 * (w * h) <= zlen a2.
Let F := final missing n ioff joff t a1 a2.
Let G x := F (x / (w + 2)) (x mod (w + 2)).

Lemma G_at j i : 0 <= i < w + 2 -> G (j * (w + 2) + i) = F j i.
Proof. intros H. unfold G. now rewrite rowmajor_div, rowmajor_mod by auto. Qed.

Lemma rem6 c : 0 <= c -> 0 <= Z.rem c 6 < 6.
Proof. intros H. rewrite Z.rem_mod_nonneg by lia. apply Z.mod_pos_bound. lia. Qed.

(** The two reads of the model at a place of a tile. *)
Lemma read a m x y : 6 * (w * h) <= zlen a -> 0 <= m < 6 -> 0 <= x < w * h -> y = m * (w * h) + x ->
  oget a y = Ok (rd missing a (m * (w * h) + x)).
Proof. intros Ha Hm Hx ->. apply oget_rd. pose proof (mul6 m (w * h) x Hm Hx). lia. Qed.

Lemma F_in j i : 1 <= j <= h -> 1 <= i <= w -> F j i = rd missing a1 (t * (w * h) + ((j - 1) * w + (i - 1))).
Proof.
  intros Kj Ki. unfold F, final. fold w h.
  rewrite (proj2 (Z.leb_le 1 j)), (proj2 (Z.leb_le j h)), (proj2 (Z.leb_le 1 i)), (proj2 (Z.leb_le i w)) by lia. reflexivity.
Qed.
Lemma F_w j : 1 <= j <= h -> F j 0 = if Z.rem t 2 =? 1 then rd missing a1 (Z.rem (t + 5) 6 * (w * h) + ((j - 1) * w + (n - 1))) else rd missing a2 (Z.rem (t + 4) 6 * (w * h) + ((n - 1) * w + (h - j))).
Proof.
  intros Kj. unfold F, final. fold w h.
  rewrite (proj2 (Z.leb_le 1 j)), (proj2 (Z.leb_le j h)) by lia. reflexivity.
Qed.
Lemma F_e j : 1 <= j <= h -> F j (w + 1) = if Z.rem t 2 =? 1 then rd missing a2 (Z.rem (t + 8) 6 * (w * h) + (ioff * w + (h - j))) else rd missing a1 (Z.rem (t + 7) 6 * (w * h) + ((j - 1) * w + ioff)).
Proof.
  intros Kj. unfold F, final. fold w h.
  rewrite (proj2 (Z.leb_le 1 j)), (proj2 (Z.leb_le j h)), (proj2 (Z.leb_gt (w + 1) w)), Z.eqb_refl by lia.
  rewrite (proj2 (Z.eqb_neq (w + 1) 0)) by lia. cbn [andb]. rewrite andb_false_r. reflexivity.
Qed.
Lemma F_s i : 1 <= i <= w -> F 0 i = if Z.rem t 2 =? 1 then rd missing a2 (Z.rem (t + 4) 6 * (w * h) + ((w - i) * h + (n - 1))) else rd missing a1 (Z.rem (t + 5) 6 * (w * h) + ((n - 1) * w + (i - 1))).
Proof.
  intros Ki. unfold F, final. fold w h.
  rewrite (proj2 (Z.leb_le 1 i)), (proj2 (Z.leb_le i w)) by lia. reflexivity.
Qed.
Lemma F_n i : 1 <= i <= w -> F (h + 1) i = if Z.rem t 2 =? 1 then rd missing a1 (Z.rem (t + 7) 6 * (w * h) + (joff * w + (i - 1))) else rd missing a2 (Z.rem (t + 8) 6 * (w * h) + ((w - i) * h + joff)).
Proof.
  intros Ki. unfold F, final. fold w h.
  rewrite (proj2 (Z.leb_le 1 i)), (proj2 (Z.leb_le i w)), (proj2 (Z.leb_gt (h + 1) h)), Z.eqb_refl by lia.
  rewrite (proj2 (Z.eqb_neq (h + 1) 0)) by lia. rewrite andb_false_r. reflexivity.
Qed.
Lemma F_corner j i : j = 0 \/ j = h + 1 -> i = 0 \/ i = w + 1 -> F j i = missing.
Proof.
  intros Kj Ki. unfold F, final. fold w h.
  replace ((1 <=? j) && (j <=? h)) with false. 2:{ symmetry. apply andb_false_iff. rewrite !Z.leb_gt. lia. }
  replace ((1 <=? i) && (i <=? w)) with false. 2:{ symmetry. apply andb_false_iff. rewrite !Z.leb_gt. lia. }
  reflexivity.
Qed.

Lemma place L j i : (h + 2) * (w + 2) <= L -> 0 <= j < h + 2 -> 0 <= i < w + 2 -> 0 <= j * (w + 2) + i < L.
Proof. intros HL Kj Ki. pose proof (rowmajor_range (h + 2) (w + 2) j i Kj Ki). lia. Qed.

Lemma store_at L P d j i v : good G L P d -> (h + 2) * (w + 2) <= L -> 0 <= j < h + 2 -> 0 <= i < w + 2 -> v = F j i ->
  exists d', oset d (j * (w + 2) + i) v = Ok d' /\ good G L (fun x => P x \/ x = j * (w + 2) + i) d'.
Proof. intros Hd HL Kj Ki ->. apply good_store; auto; [apply place; auto|]. symmetry. apply G_at. lia. Qed.

(** A loop that stores two values each time. *)
Lemma two_loop L P d m (y1 y2 i1 i2 j1 j2 : Z -> Z) (b1 b2 : list A) (p1 p2 : Z -> Z) :
  good G L P d -> (h + 2) * (w + 2) <= L -> 0 <= m ->
  (forall k, 1 <= k <= m -> oget b1 (p1 k) = Ok (F (j1 k) (i1 k)) /\ y1 k = j1 k * (w + 2) + i1 k /\ 0 <= j1 k < h + 2 /\ 0 <= i1 k < w + 2) ->
  (forall k, 1 <= k <= m -> oget b2 (p2 k) = Ok (F (j2 k) (i2 k)) /\ y2 k = j2 k * (w + 2) + i2 k /\ 0 <= j2 k < h + 2 /\ 0 <= i2 k < w + 2) ->
  exists d', ofor 1 m (fun d k => do v <- oget b1 (p1 k) ; do d <- oset d (y1 k) v ; do v <- oget b2 (p2 k) ; oset d (y2 k) v) d = Ok d'
  /\ good G L (fun x => P x \/ exists k, 1 <= k < 1 + m /\ (x = j1 k * (w + 2) + i1 k \/ x = j2 k * (w + 2) + i2 k)) d'.
Proof.
  intros Hd HL Hm S1 S2.
  apply (good_loop G L P (fun k x => x = j1 k * (w + 2) + i1 k \/ x = j2 k * (w + 2) + i2 k)); auto.
  intros k d' P' Hk Hd'. destruct (S1 k ltac:(lia)) as (E1 & Y1 & K1 & M1). destruct (S2 k ltac:(lia)) as (E2 & Y2 & K2 & M2).
  rewrite E1. cbn [bind]. rewrite Y1. destruct (store_at L P' d' (j1 k) (i1 k) _ Hd' HL K1 M1 eq_refl) as (d1 & -> & G1). cbn [bind].
  rewrite E2. cbn [bind]. rewrite Y2. destruct (store_at L _ d1 (j2 k) (i2 k) _ G1 HL K2 M2 eq_refl) as (d2 & -> & G2).
  exists d2. split; auto. eapply good_weaken; [exact G2|]. cbv beta. tauto.
Qed.

Lemma fill_run data : (h + 2) * (w + 2) <= zlen data ->
  exists out, fill_cubic_grid_halo missing n n 1 data a1 a2 t ioff joff = Ok out /\ zlen out = zlen data
  /\ forall j i, 0 <= j <= h + 1 -> 0 <= i <= w + 1 -> zget out (j * (w + 2) + i) = Some (F j i).
Proof.
  intros HL. set (L := zlen data). assert (W1 : 1 <= w) by (unfold w; lia). assert (Wh : 1 <= h) by (unfold h; lia).
  set (corner := fun x => exists j i, (j = 0 \/ j = h + 1) /\ (i = 0 \/ i = w + 1) /\ x = j * (w + 2) + i).
  unfold fill_cubic_grid_halo. cbv zeta. fold w h. change (2 * 1) with 2.
  (* missing everywhere *)
  assert (I0 : exists d0, ofor 0 ((w + 2) * (h + 2)) (fun d i => oset d i missing) data = Ok d0 /\ good G L corner d0).
  { destruct (ofor_store ((w + 2) * (h + 2)) (fun x => x) (fun _ => Ok missing) (fun _ => missing) data) as (d0 & E & E1 & E2 & _); [nia| |].
    { intros k Hk. split; auto. lia. }
    exists d0. split; [exact E|]. split; auto. intros x (j & i & Kj & Ki & ->).
    pose proof (rowmajor_range (h + 2) (w + 2) j i ltac:(lia) ltac:(lia)) as B.
    rewrite E2 by lia. rewrite G_at by lia. now rewrite F_corner. }
  destruct I0 as (d0 & -> & G0). cbn [bind].
  (* the tile *)
  assert (I1 : exists d1, ofor 1 h (fun d j => ofor 1 w (fun d i => do v <- oget a1 (t * w * h + (j - 1) * w + (i - 1)) ; oset d (j * (w + 2) + i) v) d) d0 = Ok d1
    /\ good G L (fun x => corner x \/ exists j, 1 <= j < 1 + h /\ exists i, 1 <= i < 1 + w /\ x = j * (w + 2) + i) d1).
  { apply (good_loop G L corner (fun j x => exists i, 1 <= i < 1 + w /\ x = j * (w + 2) + i)); [lia|auto|]. intros j d P Kj Gd.
    apply (good_loop G L P (fun i x => x = j * (w + 2) + i)); [lia|auto|]. intros i d' P' Ki Gd'.
    rewrite (read a1 t ((j - 1) * w + (i - 1))); [|auto|auto| |ring].
    2:{ rewrite (Z.mul_comm w h). apply rowmajor_range; lia. }
    cbn [bind]. apply store_at; auto; try lia. symmetry. apply F_in; lia. }
  destruct I1 as (d1 & -> & G1). cbn [bind].
  assert (B1 : forall j i, 0 <= j < h -> 0 <= i < w -> 0 <= j * w + i < w * h). { intros. rewrite (Z.mul_comm w h). apply rowmajor_range; auto. }
  assert (B2 : forall j i, 0 <= j < w -> 0 <= i < h -> 0 <= j * h + i < w * h). { intros. apply rowmajor_range; auto. }
  assert (B3 : forall k, 1 <= k <= h -> 0 <= (n - 1) * w + (h - k) < w * h). { intros. unfold w, h in *. nia. }
  assert (B4 : forall k, 1 <= k <= h -> 0 <= ioff * w + (h - k) < w * h). { intros. unfold w, h in *. nia. }
  assert (R : forall c, 0 <= t + c -> 0 <= Z.rem (t + c) 6 < 6) by (intros; apply rem6; auto).
  replace (t + 6 - 1) with (t + 5) by lia. replace (t + 6 + 2) with (t + 8) by lia.
  replace (t + 6 - 2) with (t + 4) by lia. replace (t + 6 + 1) with (t + 7) by lia.
  assert (Fin : forall d, good G L (fun x => ((corner x \/ (exists j, 1 <= j < 1 + h /\ exists i, 1 <= i < 1 + w /\ x = j * (w + 2) + i))
      \/ (exists k, 1 <= k < 1 + h /\ (x = k * (w + 2) + 0 \/ x = k * (w + 2) + (w + 1))))
      \/ (exists k, 1 <= k < 1 + w /\ (x = 0 * (w + 2) + k \/ x = (h + 1) * (w + 2) + k))) d ->
    zlen d = L /\ forall j i, 0 <= j <= h + 1 -> 0 <= i <= w + 1 -> zget d (j * (w + 2) + i) = Some (F j i)).
  { intros d [E K]. split; auto. intros j i Kj Ki. rewrite K; [rewrite G_at by lia; reflexivity|].
    assert (CJ : j = 0 \/ j = h + 1 \/ 1 <= j < 1 + h) by lia. assert (CI : i = 0 \/ i = w + 1 \/ 1 <= i < 1 + w) by lia.
    destruct CJ as [->|[->|CJ]]; destruct CI as [->|[->|CI]].
    - left; left; left. exists 0, 0. auto.
    - left; left; left. exists 0, (w + 1). auto.
    - right. exists i. auto.
    - left; left; left. exists (h + 1), 0. auto.
    - left; left; left. exists (h + 1), (w + 1). auto.
    - right. exists i. auto.
    - left; right. exists j. auto.
    - left; right. exists j. auto.
    - left; left; right. exists j. split; auto. exists i. auto. }
  destruct (Z.rem t 2 =? 1) eqn:Od.
  - edestruct (two_loop L _ d1 h (fun j => j * (w + 2)) (fun j => j * (w + 2) + w + 1) (fun _ => 0) (fun _ => w + 1) (fun j => j) (fun j => j) a1 a2
      (fun j => Z.rem (t + 5) 6 * w * h + (j - 1) * w + n - 1) (fun j => Z.rem (t + 8) 6 * w * h + ioff * w + h - j) G1 HL ltac:(lia)) as (d2 & E2 & G2).
    + intros k Hk. rewrite (read a1 (Z.rem (t + 5) 6) ((k - 1) * w + (n - 1))); [|auto|apply R; lia|apply B1; unfold w; lia|ring].
      rewrite F_w, Od by auto. repeat split; lia.
    + intros k Hk. rewrite (read a2 (Z.rem (t + 8) 6) (ioff * w + (h - k))); [|auto|apply R; lia|auto|ring].
      rewrite F_e, Od by auto. repeat split; lia.
    + rewrite E2. cbn [bind].
      edestruct (two_loop L _ d2 w (fun i => i) (fun i => (h + 1) * (w + 2) + i) (fun i => i) (fun i => i) (fun _ => 0) (fun _ => h + 1) a2 a1
        (fun i => Z.rem (t + 4) 6 * w * h + (w - i) * h + (n - 1)) (fun i => Z.rem (t + 7) 6 * w * h + joff * w + i - 1) G2 HL ltac:(lia)) as (d3 & E3 & G3).
      * intros k Hk. rewrite (read a2 (Z.rem (t + 4) 6) ((w - k) * h + (n - 1))); [|auto|apply R; lia|apply B2; unfold h; lia|ring].
        rewrite F_s, Od by auto. repeat split; lia.
      * intros k Hk. rewrite (read a1 (Z.rem (t + 7) 6) (joff * w + (k - 1))); [|auto|apply R; lia|apply B1; unfold h; lia|ring].
        rewrite F_n, Od by auto. repeat split; lia.
      * exists d3. split; [exact E3|]. apply Fin. exact G3.
  - edestruct (two_loop L _ d1 h (fun j => j * (w + 2)) (fun j => j * (w + 2) + w + 1) (fun _ => 0) (fun _ => w + 1) (fun j => j) (fun j => j) a2 a1
      (fun j => Z.rem (t + 4) 6 * w * h + (n - 1) * w + h - j) (fun j => Z.rem (t + 7) 6 * w * h + (j - 1) * w + ioff) G1 HL ltac:(lia)) as (d2 & E2 & G2).
    + intros k Hk. rewrite (read a2 (Z.rem (t + 4) 6) ((n - 1) * w + (h - k))); [|auto|apply R; lia|auto|ring].
      rewrite F_w, Od by auto. repeat split; lia.
    + intros k Hk. rewrite (read a1 (Z.rem (t + 7) 6) ((k - 1) * w + ioff)); [|auto|apply R; lia|apply B1; unfold w; lia|ring].
      rewrite F_e, Od by auto. repeat split; lia.
    + rewrite E2. cbn [bind].
      edestruct (two_loop L _ d2 w (fun i => i) (fun i => (h + 1) * (w + 2) + i) (fun i => i) (fun i => i) (fun _ => 0) (fun _ => h + 1) a1 a2
        (fun i => Z.rem (t + 5) 6 * w * h + (n - 1) * w + i - 1) (fun i => Z.rem (t + 8) 6 * w * h + (w - i) * h + joff) G2 HL ltac:(lia)) as (d3 & E3 & G3).
      * intros k Hk. rewrite (read a1 (Z.rem (t + 5) 6) ((n - 1) * w + (k - 1))); [|auto|apply R; lia|apply B1; unfold h; lia|ring].
        rewrite F_s, Od by auto. repeat split; lia.
      * intros k Hk. rewrite (read a2 (Z.rem (t + 8) 6) ((w - k) * h + joff)); [|auto|apply R; lia|apply B2; unfold h; lia|ring].
        rewrite F_n, Od by auto. repeat split; lia.
      * exists d3. split; [exact E3|]. apply Fin. exact G3.
Qed.
End Run.
