(** * Proofs about linear_vertical_interp and conserve_interp *)
From Coq Require Import Lra.
From Verif Require Import Base Loops Vec M_Interp Spec_Interp P_Interp.
Local Open Scope R_scope.

Lemma vec_self g n : zlen g = n -> vec g n (at_ g).
Proof. intros <-. apply vec_at. Qed.

Lemma store_row d b w N V (f : list R -> Z -> outcome (list R)) : zlen d = N -> (0 <= b)%Z -> (0 <= w)%Z -> (b + w <= N)%Z ->
  (forall d l, (0 <= l < w)%Z -> f d l = oset d (b + l) (V l)) ->
  exists d', ofor 0 w f d = Ok d' /\ zlen d' = N /\ (forall l, (0 <= l < w)%Z -> at_ d' (b + l) = V l)
    /\ (forall x, (0 <= x < N)%Z -> (x < b \/ b + w <= x)%Z -> at_ d' x = at_ d x).
Proof.
  intros L Hb Hw HN Hf. rewrite (ofor_shift 0 b).
  destruct (ofor_fill (fun s i => f s (i - b + 0)%Z) N b w (at_ d) (fun i => V (i - b)%Z) d) as (d' & E & Hv); auto. { now apply vec_self. }
  { intros i g F Hi HV _ _. rewrite Hf by lia. f_equal; [lia|]. f_equal; lia. }
  exists d'. split; auto. split; [apply Hv|]. split.
  - intros l Hl. rewrite (vec_at_ _ _ _ _ Hv) by lia. cbv beta. destruct (Z.leb_spec b (b + l)), (Z.ltb_spec (b + l) (b + w)); try lia. cbn. f_equal. lia.
  - intros x Hx Ho. rewrite (vec_at_ _ _ _ _ Hv) by lia. cbv beta. destruct (Z.leb_spec b x), (Z.ltb_spec x (b + w)); cbn; auto; lia.
Qed.

(** Linear interpolation in interval [m]. *)
Definition lin (g : list R) (v : Z -> R) (z : R) (m : Z) : R :=
  v m + (z - at_ g m) / (at_ g (m + 1) - at_ g m) * (v (m + 1)%Z - v m).

Lemma linear_vertical_run nx ny nk1 nk2 grid1 grid2 data1 data2 : (0 <= nx)%Z -> (0 <= ny)%Z -> (2 <= nk1)%Z -> (1 <= nk2)%Z ->
  zlen grid1 = nk1 -> zlen grid2 = nk2 -> zlen data1 = (nk1 * (nx * ny))%Z -> zlen data2 = (nk2 * (nx * ny))%Z ->
  increasing grid1 -> increasing grid2 -> at_ grid1 0 <= at_ grid2 0 -> at_ grid2 (nk2 - 1) <= at_ grid1 (nk1 - 1) ->
  exists out, linear_vertical_interp nx ny nk1 nk2 grid1 grid2 data1 data2 = Ok out /\ zlen out = (nk2 * (nx * ny))%Z
    /\ forall k, (0 <= k < nk2)%Z -> exists m, (0 <= m < nk1 - 1)%Z /\ at_ grid1 m <= at_ grid2 k <= at_ grid1 (m + 1)
       /\ forall l, (0 <= l < nx * ny)%Z -> at_ out (k * (nx * ny) + l) = lin grid1 (fun m => at_ data1 (m * (nx * ny) + l)) (at_ grid2 k) m.
Proof.
  intros Hx Hy H1 H2 L1 L2 LD1 LD2 I1 I2 B0 Bl. unfold linear_vertical_interp.
  destruct (check_increasing_spec grid1 nk1) as [(E & _)|(_ & C)]; try lia; [|contradiction]. rewrite E. cbn [bind]. clear E.
  destruct (check_increasing_spec grid2 nk2) as [(E & _)|(_ & C)]; try lia; [|contradiction]. rewrite E. cbn [bind]. clear E.
  rewrite !get_at by lia. cbn [bind]. destruct (rlt_spec (at_ grid2 0) (at_ grid1 0)); [lra|]. destruct (rlt_spec (at_ grid1 (nk1 - 1)) (at_ grid2 (nk2 - 1))); [lra|].
  set (w := (nx * ny)%Z) in *. assert (Hw : (0 <= w)%Z) by (unfold w; nia).
  match goal with |- context [ofor 0 nk2 ?f data2] => destruct (ofor_inv (fun i d => zlen d = (nk2 * w)%Z /\ forall k, (0 <= k < i)%Z -> exists m, (0 <= m < nk1 - 1)%Z /\ at_ grid1 m <= at_ grid2 k <= at_ grid1 (m + 1)
       /\ forall l, (0 <= l < w)%Z -> at_ d (k * w + l) = lin grid1 (fun m => at_ data1 (m * w + l)) (at_ grid2 k) m) f 0 nk2 data2) as (out & E & HL & Ho) end.
  - lia.
  - split; auto. intros; lia.
  - intros k d Hk (HL & HI). assert (Bk : (0 <= k * w)%Z /\ (k * w + w <= nk2 * w)%Z) by nia. rewrite get_at by lia. cbn [bind]. set (z := at_ grid2 k).
    assert (Bz : at_ grid1 0 <= z <= at_ grid1 (nk1 - 1)). { pose proof (inc_nondec _ I2 0%Z k ltac:(lia) ltac:(lia)). pose proof (inc_nondec _ I2 k (nk2 - 1)%Z ltac:(lia) ltac:(lia)). unfold z. lra. }
    (* enough: the row is written with the interpolation in some bracketing interval *)
    assert (FIN : forall m V f, (0 <= m < nk1 - 1)%Z -> at_ grid1 m <= z <= at_ grid1 (m + 1) ->
       (forall d l, (0 <= l < w)%Z -> f d l = oset d (k * w + l) (V l)) ->
       (forall l, (0 <= l < w)%Z -> V l = lin grid1 (fun m => at_ data1 (m * w + l)) z m) ->
       exists d', ofor 0 w f d = Ok d' /\ zlen d' = (nk2 * w)%Z /\ forall k', (0 <= k' < k + 1)%Z -> exists m, (0 <= m < nk1 - 1)%Z /\ at_ grid1 m <= at_ grid2 k' <= at_ grid1 (m + 1)
         /\ forall l, (0 <= l < w)%Z -> at_ d' (k' * w + l) = lin grid1 (fun m => at_ data1 (m * w + l)) (at_ grid2 k') m).
    { intros m V f Hm Bm Hf HV. destruct (store_row d (k * w) w (nk2 * w) V f HL ltac:(lia) Hw ltac:(lia) Hf) as (d' & E & L' & HN & HO). exists d'. split; auto. split; auto.
      intros k' Hk'. destruct (Z.eq_dec k' k) as [->|N].
      - exists m. split; auto. split; auto. intros l Hl. rewrite HN by lia. auto.
      - destruct (HI k') as (m' & Hm' & Bm' & Hl'); [lia|]. exists m'. split; auto. split; auto. intros l Hl. rewrite HO; [auto| |]; nia. }
    assert (IDX : forall m l, (0 <= m < nk1)%Z -> (0 <= l < w)%Z -> (0 <= m * w + l < zlen data1)%Z) by (intros; rewrite LD1; nia).
    assert (AS : forall a, (a * nx * ny = a * w)%Z) by (intros; unfold w; ring).
    destruct (nearest_index_cases z grid1 nk1 L1 H1 (inc_nondec _ I1)) as [(C & _)|[(C & _)|(i & Hi & Hb & Hs & E)]]; try lra. rewrite E. cbn [bind].
    destruct (rlt_spec (z - at_ grid1 (i - 1)) (at_ grid1 i - z)) as [C|C].
    + rewrite get_at by lia. cbn [bind]. assert (at_ grid1 (i - 1) < at_ grid1 i) by (apply I1; lia). destruct (rlt_spec (at_ grid1 (i - 1)) z) as [D|D].
      * rewrite get_at by lia. cbn [bind]. eapply (FIN (i - 1)%Z (fun l => _)); try lia. { replace (i - 1 + 1)%Z with i by lia. auto. }
        -- intros d0 l Hl. rewrite !AS, !get_at by (apply IDX; lia). cbn [bind]. reflexivity.
        -- intros l Hl. cbv beta. unfold lin. replace (i - 1 + 1)%Z with i by lia. field. lra.
      * destruct Hs as [->|]; [|lra]. change (1 - 1)%Z with 0%Z in *. cbn [Z.eqb]. eapply (FIN 0%Z (fun l => _)); try lia. { cbn. lra. }
        -- intros d0 l Hl. rewrite !AS, !get_at by (apply IDX; lia). cbn [bind]. reflexivity.
        -- intros l Hl. cbv beta. unfold lin. change (0 + 1)%Z with 1%Z. assert (z = at_ grid1 0) by lra. replace (z - at_ grid1 0) with 0 by lra. field. lra.
    + rewrite get_at by lia. cbn [bind]. destruct (rlt_spec (at_ grid1 i) z) as [D|D]; [lra|]. destruct (Z.eqb_spec i 0); [lia|]. rewrite get_at by lia. cbn [bind].
      assert (at_ grid1 (i - 1) < at_ grid1 i) by (apply I1; lia).
      eapply (FIN (i - 1)%Z (fun l => _)); try lia. { replace (i - 1 + 1)%Z with i by lia. auto. }
      * intros d0 l Hl. rewrite !AS, !get_at by (apply IDX; lia). cbn [bind]. reflexivity.
      * intros l Hl. cbv beta. unfold lin. replace (i - 1 + 1)%Z with i by lia. field. lra.
  - exists out. split; [exact E|]. split; auto.
Qed.

(** ** Sums *)
Lemma rsum_cons {A} (f : A -> R) a l : rsum f (a :: l) = f a + rsum f l.
Proof. reflexivity. Qed.
Lemma rsum_nil {A} (f : A -> R) : rsum f [] = 0.
Proof. reflexivity. Qed.
Lemma rsum_app {A} (f : A -> R) l1 l2 : rsum f (l1 ++ l2) = rsum f l1 + rsum f l2.
Proof. induction l1; cbn [app]; rewrite ?rsum_cons, ?rsum_nil; lra. Qed.
Lemma rsum_ext {A} (f g : A -> R) l : (forall x, In x l -> f x = g x) -> rsum f l = rsum g l.
Proof. induction l as [|a l IH]; intros H; auto. rewrite !rsum_cons, (H a) by (now left). rewrite IH; auto. intros; apply H; now right. Qed.
Lemma rsum_scal {A} (f : A -> R) c l : rsum (fun x => c * f x) l = c * rsum f l.
Proof. induction l; rewrite ?rsum_cons, ?rsum_nil; lra. Qed.
Lemma rsum_le {A} (f g : A -> R) l : (forall x, In x l -> f x <= g x) -> rsum f l <= rsum g l.
Proof. induction l as [|a l IH]; intros H; rewrite ?rsum_cons, ?rsum_nil; [lra|]. pose proof (H a (or_introl eq_refl)). assert (rsum f l <= rsum g l) by (apply IH; intros; apply H; now right). lra. Qed.
Lemma rsum_plus {A} (f g : A -> R) l : rsum (fun x => f x + g x) l = rsum f l + rsum g l.
Proof. induction l; rewrite ?rsum_cons, ?rsum_nil; lra. Qed.
Lemma rsum_zero {A} (l : list A) : rsum (fun _ => 0) l = 0.
Proof. induction l; rewrite ?rsum_cons, ?rsum_nil; lra. Qed.
Lemma rsum_nonneg {A} (f : A -> R) l : (forall x, In x l -> 0 <= f x) -> 0 <= rsum f l.
Proof. intros H. rewrite <- (rsum_zero l). apply rsum_le. auto. Qed.
Lemma rsum_pos {A} (f : A -> R) l : l <> [] -> (forall x, In x l -> 0 < f x) -> 0 < rsum f l.
Proof. destruct l as [|a l]; [congruence|]. intros _ H. rewrite rsum_cons. pose proof (H a (or_introl eq_refl)). assert (0 <= rsum f l) by (apply rsum_nonneg; intros; left; apply H; now right). lra. Qed.

Lemma rsum_indic n b v : (0 <= n)%Z -> (0 <= b < n)%Z -> rsum (fun i => if (b =? i)%Z then v else 0) (zseq 0 n) = v.
Proof.
  intros Hn Hb. unfold zseq.
  assert (G : forall k lo, (lo <= b < lo + Z.of_nat k)%Z -> rsum (fun i => if (b =? i)%Z then v else 0) (zseq_nat lo k) = v).
  { clear. induction k as [|k IH]; intros lo Hb; [lia|]. cbn [zseq_nat]. rewrite rsum_cons.
    destruct (Z.eqb_spec b lo) as [->|N].
    - rewrite (rsum_ext _ (fun _ => 0)). + rewrite rsum_zero. lra. + intros x Hx. apply In_zseq_nat in Hx. destruct (Z.eqb_spec lo x); auto. lia.
    - rewrite IH by lia. lra. }
  apply G. lia.
Qed.

(** Grouping a sum by target cell. *)
Lemma rsum_group {A} (key : A -> Z) (f : A -> R) l n : (0 <= n)%Z -> (forall x, In x l -> 0 <= key x < n)%Z ->
  rsum (fun i => rsum f (filter (fun x => (key x =? i)%Z) l)) (zseq 0 n) = rsum f l.
Proof.
  intros Hn. induction l as [|a l IH]; intros H. { cbn. apply rsum_zero. }
  rewrite (rsum_ext _ (fun i => (if (key a =? i)%Z then f a else 0) + rsum f (filter (fun x => (key x =? i)%Z) l))).
  - rewrite rsum_plus, IH by (intros; apply H; now right). rewrite rsum_indic; [reflexivity|auto|]. apply H. now left.
  - intros i _. cbn [filter]. destruct (key a =? i)%Z; [reflexivity|]. now rewrite Rplus_0_l.
Qed.

(** ** Accumulating into an array *)
Lemma accumulate {A} (key : A -> Z) (val : A -> R) n l (f : list R -> A -> outcome (list R)) a F : vec a n F ->
  (forall x, In x l -> 0 <= key x < n)%Z ->
  (forall a x, In x l -> f a x = (do v <- oget a (key x) ; oset a (key x) (v + val x))) ->
  exists a', ofold f l a = Ok a' /\ vec a' n (fun i => F i + rsum val (filter (fun x => (key x =? i)%Z) l)).
Proof.
  revert a F. induction l as [|x l IH]; intros a F Hv Hk Hf; cbn [ofold].
  - exists a. split; auto. eapply vec_ext; [|exact Hv]. intros. cbn. lra.
  - rewrite Hf by (now left). rewrite (vec_get _ _ _ _ Hv) by (apply Hk; now left). cbn [bind].
    destruct (vec_set a n F (fun i => if (key x =? i)%Z then F i + val x else F i) (key x) (F (key x) + val x) Hv) as (a1 & E1 & V1). { apply Hk; now left. }
    { intros i Hi. destruct (Z.eqb_spec (key x) i), (Z.eqb_spec i (key x)); subst; auto; lia. }
    rewrite E1. cbn [bind]. destruct (IH a1 _ V1) as (a' & E & V').
    + intros; apply Hk; now right.
    + intros; apply Hf; now right.
    + exists a'. split; auto. eapply vec_ext; [|exact V']. intros i Hi. cbn [filter]. destruct (key x =? i)%Z; rewrite ?rsum_cons; lra.
Qed.

Lemma ofold_push {A} (f : list R -> A -> outcome (list R)) (val : A -> R) l acc :
  (forall acc x, In x l -> f acc x = Ok (acc ++ [val x])) -> ofold f l acc = Ok (acc ++ map val l).
Proof.
  revert acc. induction l as [|x l IH]; intros acc H; cbn. { now rewrite app_nil_r. }
  rewrite H by (now left). cbn [bind]. rewrite IH by (intros; apply H; now right). now rewrite <- app_assoc.
Qed.
Lemma combine_self {A B} (f : A -> B) l : combine l (map f l) = map (fun x => (x, f x)) l.
Proof. induction l; cbn; congruence. Qed.
Lemma filter_map_ {A B} (p : B -> bool) (f : A -> B) l : filter p (map f l) = map f (filter (fun x => p (f x)) l).
Proof. induction l as [|a l IH]; cbn; auto. destruct (p (f a)); cbn; congruence. Qed.
Lemma rsum_map {A B} (f : B -> R) (g : A -> B) l : rsum f (map g l) = rsum (fun x => f (g x)) l.
Proof. induction l; cbn [map]; auto. rewrite !rsum_cons. now rewrite IHl. Qed.

Lemma conserve_run nxs nys nxd nyd xg src dst : (0 <= nxd)%Z -> (0 <= nyd)%Z -> (0 <= nxs)%Z -> (0 <= nys)%Z ->
  wf_xgrid nxs nys nxd nyd xg -> zlen src = (nxs * nys)%Z -> zlen dst = (nxd * nyd)%Z ->
  exists out, conserve_interp nxs nys nxd nyd xg src dst = Ok out /\ zlen out = (nxd * nyd)%Z
   /\ forall n, (0 <= n < nxd * nyd)%Z -> at_ out n = rsum (fun c => at_ src (source nxs c) * (x_area c / covered_area nxd xg n)) (covering nxd xg n).
Proof.
  intros Hx Hy Hsx Hsy WF LS LD. unfold conserve_interp. set (N := (nxd * nyd)%Z). assert (HN : (0 <= N)%Z) by (unfold N; nia).
  assert (KT : forall c, In c xg -> (0 <= target nxd c < N)%Z). { intros c Hc. destruct (WF c Hc) as ((_ & _ & ? & ?) & _). unfold target, N. nia. }
  assert (KS : forall c, In c xg -> (0 <= source nxs c < zlen src)%Z). { intros c Hc. destruct (WF c Hc) as ((? & ? & _) & _). unfold source. rewrite LS. nia. }
  destruct (accumulate (target nxd) x_area N xg (fun a c => do v <- oget a (x_j2 c * nxd + x_i2 c) ; oset a (x_j2 c * nxd + x_i2 c) (v + x_area c)) _ _ (vec_repeat 0 N HN) KT) as (da & E & Va). { reflexivity. }
  unfold alloc. cbn zeta. rewrite E. cbn [bind]. clear E.
  rewrite (ofold_push _ (fun c => x_area c / covered_area nxd xg (target nxd c)) xg []).
  2:{ intros acc c Hc. fold (target nxd c). rewrite (vec_get _ _ _ _ Va) by (auto). cbn [bind]. unfold covered_area, covering. rewrite Rplus_0_l. reflexivity. }
  cbn [bind app]. destruct (ofor_fill (fun d n => oset d n 0) N 0 N (at_ dst) (fun _ => 0) dst) as (d0 & E & V0); try lia. { now apply vec_self. } { reflexivity. }
  rewrite E. cbn [bind]. clear E. rewrite combine_self.
  match goal with |- context [ofold ?f (map ?g xg) d0] => destruct (accumulate (fun cf : xcell * R => target nxd (fst cf)) (fun cf => at_ src (source nxs (fst cf)) * snd cf) N (map g xg) f d0 _ V0) as (out & E & Vo) end.
  - intros x Hi. apply in_map_iff in Hi. destruct Hi as (c & <- & Hc). cbn. auto.
  - intros a x Hi. apply in_map_iff in Hi. destruct Hi as (c & <- & Hc). cbn [fst snd]. fold (target nxd c). fold (source nxs c). rewrite (get_at src) by auto. destruct (oget a (target nxd c)); reflexivity.
  - exists out. split; [exact E|]. split; [apply Vo|]. intros n Hn. rewrite (vec_at_ _ _ _ _ Vo) by auto. cbv beta.
    destruct (Z.leb_spec 0 n), (Z.ltb_spec n (0 + N)); try lia. cbn [andb]. rewrite Rplus_0_l, filter_map_, rsum_map. cbn [fst snd]. unfold covering. apply rsum_ext. intros c Hc. apply filter_In in Hc. destruct Hc as [_ Hc]. apply Z.eqb_eq in Hc. now rewrite Hc.
Qed.
