(** Proofs for M_Bilinear: the search, the arrays of weights, the interpolation of scalars and vectors. *)
From Coq Require Import Reals ZArith List Bool Lia Lra Psatz.
From Verif Require Import Base Loops M_Interp P_Longitude P_Gnomonic2 Spec_Gnomonic Spec_Schmidt P_Schmidt Spec_Bilinear M_Bilinear P_Bilinear.
Import ListNotations.
Open Scope R_scope.

Ltac bind_inv H := repeat match type of H with bind _ _ = Ok _ =>
  apply bind_ok in H; let v := fresh "v" in let G := fresh "G" in destruct H as (v & G & H) end.

(** ** The cell that was found *)
Lemma closest_range nx ny g v0 i j ic jc : (1 <= i <= nx)%Z -> (1 <= j <= ny)%Z -> closest_index nx ny g v0 i j = Ok (Some (ic, jc)) ->
  (0 <= ic <= nx)%Z /\ (0 <= jc <= ny)%Z /\ (ic, jc) <> (0, 0)%Z /\ (ic = i \/ ic = i - 1)%Z /\ (jc = j \/ jc = j - 1)%Z.
Proof.
  intros Hi Hj H. unfold closest_index in H. bind_inv H.
  assert (K : forall a b : Z, Some (a, b) = Some (ic, jc) -> (a = i \/ a = i - 1)%Z -> (b = j \/ b = j - 1)%Z -> ((a = i \/ b = j) \/ (1 < i)%Z) ->
    (0 <= ic <= nx)%Z /\ (0 <= jc <= ny)%Z /\ (ic, jc) <> (0, 0)%Z /\ (ic = i \/ ic = i - 1)%Z /\ (jc = j \/ jc = j - 1)%Z).
  { intros a b [= -> ->] A B C. repeat split; try lia. intros [= E1 E2]. lia. }
  repeat (bind_inv H; match type of H with
    | Ok (if ?b then _ else _) = _ => destruct b
    | (if ?b then _ else _) = Ok _ => destruct b eqn:?
    end).
  all: try discriminate.
  all: injection H as <- <-.
  all: try (eapply K; [reflexivity| | |]; lia).
  all: apply andb_prop in Heqb1; destruct Heqb1 as [Heqb1 Hj1]; apply andb_prop in Heqb1; destruct Heqb1 as [_ Hi1];
    apply Z.ltb_lt in Hi1; apply Z.ltb_lt in Hj1; eapply K; [reflexivity| | |]; lia.
Qed.

(** ** One value for every point *)
Lemma ofor_fill {A} n (f : list A -> Z -> outcome (list A)) (val : Z -> A) out : (0 <= n <= zlen out)%Z ->
  (forall o k, (0 <= k < n)%Z -> f o k = oset o k (val k)) ->
  exists out', ofor 0 n f out = Ok out' /\ zlen out' = zlen out /\ (forall k, (0 <= k < n)%Z -> zget out' k = Some (val k)).
Proof.
  intros Hn Hf. destruct (ofor_store n (fun k => k) (fun k => Ok (val k)) val out) as (o & E & L & G & _); [lia|intros; split; [auto|lia]|].
  exists o. split; [|auto]. rewrite <- E. apply ofor_ext. intros s k Hk. rewrite Hf by lia. reflexivity.
Qed.

(** ** The arrays of weights *)
Lemma of4_get (ws : list R) (w : Z -> R) m : ws = [w 0%Z; w 1%Z; w 2%Z; w 3%Z] -> (0 <= m < 4)%Z -> zget ws m = Some (w m).
Proof. intros -> H. destruct (four m H) as [->|[->|[->| ->]]]; reflexivity. Qed.

Lemma ofor_ok_inv {S} (P : Z -> S -> Prop) n (f : S -> Z -> outcome S) s s' : (0 <= n)%Z -> ofor 0 n f s = Ok s' -> P 0%Z s ->
  (forall i s s1, (0 <= i < n)%Z -> P i s -> f s i = Ok s1 -> P (i + 1)%Z s1) -> P n s'.
Proof.
  intros Hn E P0 St.
  assert (K : forall k, (0 <= k)%Z -> forall lo s s', ofor lo k f s = Ok s' -> P lo s ->
    (forall i s s1, (lo <= i < lo + k)%Z -> P i s -> f s i = Ok s1 -> P (i + 1)%Z s1) -> P (lo + k)%Z s').
  { clear. apply (natlike_ind (fun k => forall lo s s', ofor lo k f s = Ok s' -> P lo s ->
      (forall i s s1, (lo <= i < lo + k)%Z -> P i s -> f s i = Ok s1 -> P (i + 1)%Z s1) -> P (lo + k)%Z s')).
    - intros lo s s' E P0 _. rewrite ofor_0 in E by lia. injection E as <-. now replace (lo + 0)%Z with lo by lia.
    - intros k Hk IH lo s s' E P0 St. rewrite ofor_S in E by lia. apply bind_ok in E as (s1 & E1 & E).
      replace (lo + Z.succ k)%Z with (lo + 1 + k)%Z by lia. replace (Z.succ k - 1)%Z with k in E by lia.
      apply (IH (lo + 1)%Z s1 s' E); [apply (St lo s s1); auto; lia|]. intros i s0 s2 Hi. apply (St i s0 s2); lia. }
  apply (K n Hn 0%Z s s' E P0). intros i s0 s1 Hi. apply (St i s0 s1). lia.
Qed.

(** ** The formula *)
Lemma cross_anti u v : cross v u = scale (-1) (cross u v).
Proof. destruct u as [[? ?] ?], v as [[? ?] ?]. unfold cross, scale. apply v3; ring. Qed.
Lemma circle_sym u v p : from_circle v u p = from_circle u v p.
Proof.
  unfold from_circle, norm. rewrite (cross_anti u v). set (c := cross u v). replace (dot (scale (-1) c) p) with (- dot c p) by (destruct c as [[? ?] ?], p as [[? ?] ?]; unfold dot, scale; ring).
  replace (dot (scale (-1) c) (scale (-1) c)) with (dot c c) by (destruct c as [[? ?] ?]; unfold dot, scale; ring). now rewrite Rabs_Ropp.
Qed.
Lemma distance_sym u v p d : distance u v p d -> distance v u p d.
Proof. unfold distance. now rewrite circle_sym. Qed.
Lemma cross_nz_sym u v : cross u v <> (0, 0, 0) -> cross v u <> (0, 0, 0).
Proof. intros H E. apply H. rewrite cross_anti, E. unfold scale. apply v3; ring. Qed.
Lemma distance_ok u v p : dot u u = 1 -> dot p p = 1 -> cross u v <> (0, 0, 0) -> distance u v p (dist2side u v p).
Proof. apply distance_spec. Qed.

Section F.
  Variables (nx ny ic jc : Z) (g : Z -> outcome vec3) (v : Z -> vec) (p : vec).
  Hypothesis (Hx : (0 <= ic <= nx)%Z) (Hy : (0 <= jc <= ny)%Z) (Nx : (1 <= nx)%Z) (Ny : (1 <= ny)%Z) (NZ : (ic, jc) <> (0, 0)%Z).
  Hypothesis Hg : forall m, (0 <= m < 4)%Z -> is_cell nx ny ic jc m -> g (pos nx (ic + fst (corner m)) (jc + snd (corner m))) = Ok (v m) /\ dot (v m) (v m) = 1.
  Hypothesis Hp : dot p p = 1.

  Lemma g0 : is_cell nx ny ic jc 0 -> g (jc * (nx + 2) + ic)%Z = Ok (v 0%Z) /\ dot (v 0%Z) (v 0%Z) = 1.
  Proof. intros H. destruct (Hg 0 ltac:(lia) H) as [G U]. split; auto. rewrite <- G. f_equal. unfold pos, corner; cbn [fst snd]. ring. Qed.
  Lemma g1 : is_cell nx ny ic jc 1 -> g ((jc + 1) * (nx + 2) + ic)%Z = Ok (v 1%Z) /\ dot (v 1%Z) (v 1%Z) = 1.
  Proof. intros H. destruct (Hg 1 ltac:(lia) H) as [G U]. split; auto. rewrite <- G. f_equal. unfold pos, corner; cbn [fst snd]. ring. Qed.
  Lemma g2 : is_cell nx ny ic jc 2 -> g ((jc + 1) * (nx + 2) + ic + 1)%Z = Ok (v 2%Z) /\ dot (v 2%Z) (v 2%Z) = 1.
  Proof. intros H. destruct (Hg 2 ltac:(lia) H) as [G U]. split; auto. rewrite <- G. f_equal. unfold pos, corner; cbn [fst snd]. ring. Qed.
  Lemma g3 : is_cell nx ny ic jc 3 -> g (jc * (nx + 2) + ic + 1)%Z = Ok (v 3%Z) /\ dot (v 3%Z) (v 3%Z) = 1.
  Proof. intros H. destruct (Hg 3 ltac:(lia) H) as [G U]. split; auto. rewrite <- G. f_equal. unfold pos, corner; cbn [fst snd]. ring. Qed.

  Lemma cell_case : let C := is_cell nx ny ic jc in
    (C 0%Z /\ C 1%Z /\ C 2%Z /\ C 3%Z /\ ~ (ic = nx /\ jc = ny)%Z /\ ~ (ic = 0 /\ jc = ny)%Z /\ ~ (jc = 0 /\ ic = nx)%Z)
    \/ (C 0%Z /\ C 1%Z /\ ~ C 2%Z /\ C 3%Z /\ (ic = nx /\ jc = ny)%Z)
    \/ (C 0%Z /\ ~ C 1%Z /\ C 2%Z /\ C 3%Z /\ (ic = 0 /\ jc = ny)%Z)
    \/ (C 0%Z /\ C 1%Z /\ C 2%Z /\ ~ C 3%Z /\ (jc = 0 /\ ic = nx)%Z).
  Proof.
    cbv zeta. unfold is_cell, no_cell, corner; cbn [fst snd].
    assert (~ (ic = 0 /\ jc = 0)%Z) by (intros [-> ->]; apply NZ; reflexivity).
    destruct (Z.eq_dec ic nx) as [A|A], (Z.eq_dec jc ny) as [B|B], (Z.eq_dec ic 0) as [C|C], (Z.eq_dec jc 0) as [D|D]; try (exfalso; lia).
    all: first
      [ left; repeat split; solve [lia|intros [? ?]; lia]
      | right; left; repeat split; solve [lia|intros [? ?]; lia|intros NN; apply NN; split; lia]
      | right; right; left; repeat split; solve [lia|intros [? ?]; lia|intros NN; apply NN; split; lia]
      | right; right; right; repeat split; solve [lia|intros [? ?]; lia|intros NN; apply NN; split; lia] ].
  Qed.

  (* the four branches *)
  Lemma branches : let C := is_cell nx ny ic jc in
    (C 0%Z /\ C 1%Z /\ C 2%Z /\ C 3%Z /\
      let d1 := dist2side (v 0%Z) (v 1%Z) p in let d2 := dist2side (v 1%Z) (v 2%Z) p in
      let d3 := dist2side (v 2%Z) (v 3%Z) p in let d4 := dist2side (v 3%Z) (v 0%Z) p in
      cell_weights nx ny ic jc g p = div_sum (d2 * d3 + d3 * d4 + d4 * d1 + d1 * d2) [d2 * d3; d3 * d4; d4 * d1; d1 * d2])
    \/ (C 0%Z /\ C 1%Z /\ ~ C 2%Z /\ C 3%Z /\
      let d1 := dist2side (v 3%Z) (v 1%Z) p in let d2 := dist2side (v 3%Z) (v 0%Z) p in let d3 := dist2side (v 0%Z) (v 1%Z) p in
      cell_weights nx ny ic jc g p = div_sum (d1 + d2 + d3) [d1; d2; 0; d3])
    \/ (C 0%Z /\ ~ C 1%Z /\ C 2%Z /\ C 3%Z /\
      let d1 := dist2side (v 2%Z) (v 3%Z) p in let d2 := dist2side (v 3%Z) (v 0%Z) p in let d3 := dist2side (v 2%Z) (v 0%Z) p in
      cell_weights nx ny ic jc g p = div_sum (d1 + d2 + d3) [d1; 0; d2; d3])
    \/ (C 0%Z /\ C 1%Z /\ C 2%Z /\ ~ C 3%Z /\
      let d1 := dist2side (v 1%Z) (v 2%Z) p in let d2 := dist2side (v 0%Z) (v 2%Z) p in let d3 := dist2side (v 0%Z) (v 1%Z) p in
      cell_weights nx ny ic jc g p = div_sum (d1 + d2 + d3) [d1; d2; d3; 0]).
  Proof.
    cbv zeta. unfold cell_weights. destruct cell_case as [(A & B & C & D & E1 & E2 & E3)|[(A & B & C & D & E)|[(A & B & C & D & E)|(A & B & C & D & E)]]].
    - left. do 4 (split; [assumption|]).
      replace ((ic =? nx) && (jc =? ny))%Z with false by lia. replace ((ic =? 0) && (jc =? ny))%Z with false by lia. replace ((jc =? 0) && (ic =? nx))%Z with false by lia.
      rewrite (proj1 (g0 A)), (proj1 (g1 B)), (proj1 (g2 C)), (proj1 (g3 D)). reflexivity.
    - right; left. do 4 (split; [assumption|]). replace ((ic =? nx) && (jc =? ny))%Z with true by lia.
      rewrite (proj1 (g0 A)), (proj1 (g1 B)), (proj1 (g3 D)). reflexivity.
    - right; right; left. do 4 (split; [assumption|]). replace ((ic =? nx) && (jc =? ny))%Z with false by lia. replace ((ic =? 0) && (jc =? ny))%Z with true by lia.
      rewrite (proj1 (g0 A)), (proj1 (g2 C)), (proj1 (g3 D)). reflexivity.
    - right; right; right. do 4 (split; [assumption|]). replace ((ic =? nx) && (jc =? ny))%Z with false by lia. replace ((ic =? 0) && (jc =? ny))%Z with false by lia.
      replace ((jc =? 0) && (ic =? nx))%Z with true by lia.
      rewrite (proj1 (g0 A)), (proj1 (g1 B)), (proj1 (g2 C)). reflexivity.
  Qed.

  Ltac sd := apply dist_nonneg.
  Lemma formula ws : (forall a b, side nx ny ic jc a b -> cross (v a) (v b) <> (0, 0, 0)) ->
    cell_weights nx ny ic jc g p = Ok ws -> exists w, ws = [w 0%Z; w 1%Z; w 2%Z; w 3%Z] /\ bilinear nx ny ic jc v p w.
  Proof.
    intros Hc H.
    assert (U : forall m, (0 <= m < 4)%Z -> is_cell nx ny ic jc m -> dot (v m) (v m) = 1) by (intros; now apply Hg).
    assert (DI : forall a b, side nx ny ic jc a b -> distance (v a) (v b) p (dist2side (v a) (v b) p)) by (intros a b S; apply distance_ok; [apply U; apply S|auto|auto]).
    destruct branches as [(A & B & C & D & E)|[(A & B & C & D & E)|[(A & B & C & D & E)|(A & B & C & D & E)]]]; cbv zeta in E; rewrite E in H; clear E;
      apply div_sum_ok in H as [Ns ->]; cbn [map].
    - assert (S1 : forall m, (0 <= m < 4)%Z -> side nx ny ic jc m ((m + 1) mod 4)).
      { intros m Hm. destruct (four m Hm) as [->|[->|[->| ->]]]; (split; [repeat split; discriminate|]); auto. }
      pose proof (DI _ _ (S1 0%Z ltac:(lia))) as D0. pose proof (DI _ _ (S1 1%Z ltac:(lia))) as D1.
      pose proof (DI _ _ (S1 2%Z ltac:(lia))) as D2. pose proof (DI _ _ (S1 3%Z ltac:(lia))) as D3.
      cbv beta in *. change ((0 + 1) mod 4)%Z with 1%Z in *. change ((1 + 1) mod 4)%Z with 2%Z in *. change ((2 + 1) mod 4)%Z with 3%Z in *. change ((3 + 1) mod 4)%Z with 0%Z in *.
      set (d0 := dist2side (v 0%Z) (v 1%Z) p) in *. set (d1 := dist2side (v 1%Z) (v 2%Z) p) in *. set (d2 := dist2side (v 2%Z) (v 3%Z) p) in *. set (d3 := dist2side (v 3%Z) (v 0%Z) p) in *.
      assert (0 <= d0 /\ 0 <= d1 /\ 0 <= d2 /\ 0 <= d3) as (P0 & P1 & P2 & P3) by (repeat split; sd). clearbody d0 d1 d2 d3.
      set (S := d1 * d2 + d2 * d3 + d3 * d0 + d0 * d1) in *.
      assert (SP : 0 < S) by (assert (0 <= S) by (unfold S; nra); lra). clearbody S.
      exists (of4 (d1 * d2 / S) (d2 * d3 / S) (d3 * d0 / S) (d0 * d1 / S)). split; [reflexivity|]. exists S. split; auto. split.
      + intros _. exists (of4 d0 d1 d2 d3). split; intros m Hm; destruct (four m Hm) as [->|[->|[->| ->]]]; try assumption; cbn [of4].
        all: match goal with |- context [of4 _ _ _ _ ?z] => idtac | _ => idtac end.
        all: [> change (of4 d0 d1 d2 d3 ((0 + 1) mod 4)) with d1; change (of4 d0 d1 d2 d3 ((0 + 2) mod 4)) with d2
             |change (of4 d0 d1 d2 d3 ((1 + 1) mod 4)) with d2; change (of4 d0 d1 d2 d3 ((1 + 2) mod 4)) with d3
             |change (of4 d0 d1 d2 d3 ((2 + 1) mod 4)) with d3; change (of4 d0 d1 d2 d3 ((2 + 2) mod 4)) with d0
             |change (of4 d0 d1 d2 d3 ((3 + 1) mod 4)) with d0; change (of4 d0 d1 d2 d3 ((3 + 2) mod 4)) with d1]; field; lra.
      + intros k Hk N. exfalso. destruct (four k Hk) as [->|[->|[->| ->]]]; auto.
    - assert (S1 : forall a b, (0 <= a < 4 /\ 0 <= b < 4 /\ a <> b /\ a <> 2 /\ b <> 2)%Z -> side nx ny ic jc a b).
      { intros a b Hab. split; [lia|]. split; [|split; [|right; exists 2%Z; split; [lia|auto]]].
        - destruct (four a ltac:(lia)) as [->|[->|[->| ->]]]; auto; lia.
        - destruct (four b ltac:(lia)) as [->|[->|[->| ->]]]; auto; lia. }
      pose proof (DI _ _ (S1 3%Z 1%Z ltac:(lia))) as D0. pose proof (DI _ _ (S1 3%Z 0%Z ltac:(lia))) as D1. pose proof (DI _ _ (S1 0%Z 1%Z ltac:(lia))) as D3.
      set (d0 := dist2side (v 3%Z) (v 1%Z) p) in *. set (d1 := dist2side (v 3%Z) (v 0%Z) p) in *. set (d3 := dist2side (v 0%Z) (v 1%Z) p) in *.
      assert (0 <= d0 /\ 0 <= d1 /\ 0 <= d3) as (P0 & P1 & P3) by (repeat split; sd). clearbody d0 d1 d3.
      assert (SP : 0 < d0 + d1 + d3) by lra. set (S := d0 + d1 + d3) in *. clearbody S.
      exists (of4 (d0 / S) (d1 / S) (0 / S) (d3 / S)). split; [reflexivity|]. exists S. split; auto. split; [intros F; exfalso; apply C; apply F; lia|].
      intros k Hk N. assert (k = 2%Z) as -> by (destruct (four k Hk) as [->|[->|[->| ->]]]; auto; contradiction).
      split; [cbn [of4]; field; lra|]. exists (of4 d0 d1 0 d3). intros a b m Hab. pose proof (distance_sym _ _ _ _ D0). pose proof (distance_sym _ _ _ _ D1). pose proof (distance_sym _ _ _ _ D3).
      destruct (four a ltac:(lia)) as [->|[->|[->| ->]]], (four b ltac:(lia)) as [->|[->|[->| ->]]], (four m ltac:(lia)) as [->|[->|[->| ->]]]; try (exfalso; lia);
        cbn [of4]; split; auto; field; lra.
    - assert (S1 : forall a b, (0 <= a < 4 /\ 0 <= b < 4 /\ a <> b /\ a <> 1 /\ b <> 1)%Z -> side nx ny ic jc a b).
      { intros a b Hab. split; [lia|]. split; [|split; [|right; exists 1%Z; split; [lia|auto]]].
        - destruct (four a ltac:(lia)) as [->|[->|[->| ->]]]; auto; lia.
        - destruct (four b ltac:(lia)) as [->|[->|[->| ->]]]; auto; lia. }
      pose proof (DI _ _ (S1 2%Z 3%Z ltac:(lia))) as D0. pose proof (DI _ _ (S1 3%Z 0%Z ltac:(lia))) as D2. pose proof (DI _ _ (S1 2%Z 0%Z ltac:(lia))) as D3.
      set (d0 := dist2side (v 2%Z) (v 3%Z) p) in *. set (d2 := dist2side (v 3%Z) (v 0%Z) p) in *. set (d3 := dist2side (v 2%Z) (v 0%Z) p) in *.
      assert (0 <= d0 /\ 0 <= d2 /\ 0 <= d3) as (P0 & P2 & P3) by (repeat split; sd). clearbody d0 d2 d3.
      assert (SP : 0 < d0 + d2 + d3) by lra. set (S := d0 + d2 + d3) in *. clearbody S.
      exists (of4 (d0 / S) (0 / S) (d2 / S) (d3 / S)). split; [reflexivity|]. exists S. split; auto. split; [intros F; exfalso; apply B; apply F; lia|].
      intros k Hk N. assert (k = 1%Z) as -> by (destruct (four k Hk) as [->|[->|[->| ->]]]; auto; contradiction).
      split; [cbn [of4]; field; lra|]. exists (of4 d0 0 d2 d3). intros a b m Hab. pose proof (distance_sym _ _ _ _ D0). pose proof (distance_sym _ _ _ _ D2). pose proof (distance_sym _ _ _ _ D3).
      destruct (four a ltac:(lia)) as [->|[->|[->| ->]]], (four b ltac:(lia)) as [->|[->|[->| ->]]], (four m ltac:(lia)) as [->|[->|[->| ->]]]; try (exfalso; lia);
        cbn [of4]; split; auto; field; lra.
    - assert (S1 : forall a b, (0 <= a < 4 /\ 0 <= b < 4 /\ a <> b /\ a <> 3 /\ b <> 3)%Z -> side nx ny ic jc a b).
      { intros a b Hab. split; [lia|]. split; [|split; [|right; exists 3%Z; split; [lia|auto]]].
        - destruct (four a ltac:(lia)) as [->|[->|[->| ->]]]; auto; lia.
        - destruct (four b ltac:(lia)) as [->|[->|[->| ->]]]; auto; lia. }
      pose proof (DI _ _ (S1 1%Z 2%Z ltac:(lia))) as D0. pose proof (DI _ _ (S1 0%Z 2%Z ltac:(lia))) as D1. pose proof (DI _ _ (S1 0%Z 1%Z ltac:(lia))) as D2.
      set (d0 := dist2side (v 1%Z) (v 2%Z) p) in *. set (d1 := dist2side (v 0%Z) (v 2%Z) p) in *. set (d2 := dist2side (v 0%Z) (v 1%Z) p) in *.
      assert (0 <= d0 /\ 0 <= d1 /\ 0 <= d2) as (P0 & P1 & P2) by (repeat split; sd). clearbody d0 d1 d2.
      assert (SP : 0 < d0 + d1 + d2) by lra. set (S := d0 + d1 + d2) in *. clearbody S.
      exists (of4 (d0 / S) (d1 / S) (d2 / S) (0 / S)). split; [reflexivity|]. exists S. split; auto. split; [intros F; exfalso; apply D; apply F; lia|].
      intros k Hk N. assert (k = 3%Z) as -> by (destruct (four k Hk) as [->|[->|[->| ->]]]; auto; contradiction).
      split; [cbn [of4]; field; lra|]. exists (of4 d0 d1 d2 0). intros a b m Hab. pose proof (distance_sym _ _ _ _ D0). pose proof (distance_sym _ _ _ _ D1). pose proof (distance_sym _ _ _ _ D2).
      destruct (four a ltac:(lia)) as [->|[->|[->| ->]]], (four b ltac:(lia)) as [->|[->|[->| ->]]], (four m ltac:(lia)) as [->|[->|[->| ->]]]; try (exfalso; lia);
        cbn [of4]; split; auto; field; lra.
  Qed.

  Lemma distance_pos u w : dot u u = 1 -> 1 / 100000000000000 < from_circle u w p -> 0 < dist2side u w p.
  Proof.
    intros Hu L. assert (N : cross u w <> (0, 0, 0)). { intros E. unfold from_circle in L. rewrite E in L. replace (dot (0, 0, 0) p) with 0 in L by (destruct p as [[? ?] ?]; unfold dot; ring).
      rewrite Rabs_R0 in L. unfold Rdiv in L. rewrite Rmult_0_l in L. lra. }
    destruct (distance_ok u w p Hu Hp N) as [[P _] A]. destruct P as [P|E]; auto. exfalso. rewrite <- E, sin_0 in A.
    rewrite Rabs_minus_sym, Rminus_0_r in A. rewrite Rabs_pos_eq in A; lra.
  Qed.
  Lemma defined : (forall a b, side nx ny ic jc a b -> 1 / 100000000000000 < from_circle (v a) (v b) p) ->
    exists ws, cell_weights nx ny ic jc g p = Ok ws.
  Proof.
    intros Hc. assert (U : forall m, (0 <= m < 4)%Z -> is_cell nx ny ic jc m -> dot (v m) (v m) = 1) by (intros; now apply Hg).
    assert (DI : forall a b, side nx ny ic jc a b -> 0 < dist2side (v a) (v b) p) by (intros a b S; apply distance_pos; [apply U; apply S|auto]).
    assert (K : forall s l, 0 < s -> exists ws, div_sum s l = Ok ws). { intros s l Hs. unfold div_sum. destruct (Req_EM_T s 0); [lra|eauto]. }
    destruct branches as [(A & B & C & D & E)|[(A & B & C & D & E)|[(A & B & C & D & E)|(A & B & C & D & E)]]]; cbv zeta in E; rewrite E; clear E; apply K.
    - assert (S1 : forall m, (0 <= m < 4)%Z -> side nx ny ic jc m ((m + 1) mod 4)).
      { intros m Hm. destruct (four m Hm) as [->|[->|[->| ->]]]; (split; [repeat split; discriminate|]); auto. }
      pose proof (DI _ _ (S1 0%Z ltac:(lia))) as D0. pose proof (DI _ _ (S1 1%Z ltac:(lia))) as D1.
      pose proof (DI _ _ (S1 2%Z ltac:(lia))) as D2. pose proof (DI _ _ (S1 3%Z ltac:(lia))) as D3.
      cbv beta in *. change ((0 + 1) mod 4)%Z with 1%Z in *. change ((1 + 1) mod 4)%Z with 2%Z in *. change ((2 + 1) mod 4)%Z with 3%Z in *. change ((3 + 1) mod 4)%Z with 0%Z in *.
      nra.
    - pose proof (DI 3%Z 1%Z). pose proof (dist_nonneg (v 3%Z) (v 0%Z) p). pose proof (dist_nonneg (v 0%Z) (v 1%Z) p).
      enough (0 < dist2side (v 3%Z) (v 1%Z) p) by lra. apply DI. split; [lia|]. split; auto. split; auto. right. exists 2%Z. split; [lia|auto].
    - pose proof (dist_nonneg (v 3%Z) (v 0%Z) p). pose proof (dist_nonneg (v 2%Z) (v 0%Z) p).
      enough (0 < dist2side (v 2%Z) (v 3%Z) p) by lra. apply DI. split; [lia|]. split; auto.
    - pose proof (dist_nonneg (v 0%Z) (v 2%Z) p). pose proof (dist_nonneg (v 0%Z) (v 1%Z) p).
      enough (0 < dist2side (v 1%Z) (v 2%Z) p) by lra. apply DI. split; [lia|]. split; auto.
  Qed.
End F.

(** ** The array *)
Lemma put4 (ws : list R) (w : Z -> R) (a : list R) n0 a' : ws = [w 0%Z; w 1%Z; w 2%Z; w 3%Z] ->
  ofor 0 4 (fun a m => do x <- oget ws m ; oset a (4 * n0 + m) x) a = Ok a' ->
  zlen a' = zlen a /\ (forall m, (0 <= m < 4)%Z -> zget a' (4 * n0 + m) = Some (w m))
  /\ (forall k, ~ (4 * n0 <= k < 4 * n0 + 4)%Z -> zget a' k = zget a k).
Proof.
  intros Hw E.
  assert (K : zlen a' = zlen a /\ (forall m, (0 <= m < 4)%Z -> zget a' (4 * n0 + m) = Some (w m)) /\ (forall k, ~ (4 * n0 <= k < 4 * n0 + 4)%Z -> zget a' k = zget a k)).
  { apply (ofor_ok_inv (fun i s => zlen s = zlen a /\ (forall m, (0 <= m < i)%Z -> zget s (4 * n0 + m) = Some (w m)) /\ (forall k, ~ (4 * n0 <= k < 4 * n0 + 4)%Z -> zget s k = zget a k)) 4 _ a a' ltac:(lia) E).
    - split; auto. split; auto. intros m Hm. lia.
    - intros i s s1 Hi (L & G & N) F. rewrite (oget_some ws i (w i)) in F by (apply of4_get; auto). cbn [bind] in F. apply oset_Ok in F.
      split; [rewrite (zset_len _ _ _ _ F); auto|]. split.
      + intros m Hm. destruct (Z.eq_dec m i) as [->|Ne]; [apply (zget_zset_eq _ _ _ _ F)|]. rewrite (zget_zset_ne _ _ _ _ _ F) by lia. apply G. lia.
      + intros k Hk. rewrite (zget_zset_ne _ _ _ _ _ F) by lia. auto. }
  exact K.
Qed.

Lemma all_weights_inv nx ny grids xo yo zo index n_out weight weight' : (0 <= n_out)%Z ->
  all_weights nx ny grids xo yo zo index n_out weight = Ok weight' ->
  (forall n ic jc l, (0 <= n < n_out)%Z -> found index n ic jc l -> (0 <= ic <= nx)%Z /\ (0 <= jc <= ny)%Z) -> (1 <= nx)%Z -> (1 <= ny)%Z ->
  zlen weight' = zlen weight /\
  forall n, (0 <= n < n_out)%Z -> exists ic jc l xt yt zt v0 ws (w : Z -> R),
    found index n ic jc l /\ zget grids l = Some (xt, yt, zt) /\ vec_at xo yo zo n = Ok v0
    /\ cell_weights nx ny ic jc (vec_at xt yt zt) v0 = Ok ws /\ ws = [w 0%Z; w 1%Z; w 2%Z; w 3%Z]
    /\ (forall m, (0 <= m < 4)%Z -> zget weight' (4 * n + m) = Some (w m)).
Proof.
  intros Hn E HI Nx Ny. unfold all_weights in E.
  apply (ofor_ok_inv (fun i s => zlen s = zlen weight /\
    forall n, (0 <= n < i)%Z -> exists ic jc l xt yt zt v0 ws (w : Z -> R),
    found index n ic jc l /\ zget grids l = Some (xt, yt, zt) /\ vec_at xo yo zo n = Ok v0
    /\ cell_weights nx ny ic jc (vec_at xt yt zt) v0 = Ok ws /\ ws = [w 0%Z; w 1%Z; w 2%Z; w 3%Z]
    /\ (forall m, (0 <= m < 4)%Z -> zget s (4 * n + m) = Some (w m))) n_out _ weight weight' Hn E).
  - split; auto. intros n Hn'. lia.
  - intros i s s1 Hi (L & G) F. bind_inv F. destruct v3 as [[xt yt] zt]. bind_inv F.
    assert (FI : found index i v v0 v1) by (repeat split; now apply oget_Ok).
    destruct (HI i v v0 v1 Hi FI) as [Rx Ry].
    destruct (weights_spec nx ny v v0 (vec_at xt yt zt) v2 Rx Ry Nx Ny _ G5) as (w & Hw & _).
    destruct (put4 v3 w s i s1 Hw F) as (L' & P & N). split; [congruence|].
    intros n Hn'. destruct (Z.eq_dec n i) as [->|Ne].
    + exists v, v0, v1, xt, yt, zt, v2, v3, w. repeat (split; [first [assumption|now apply oget_Ok]|]). exact P.
    + destruct (G n ltac:(lia)) as (ic & jc & l & xt' & yt' & zt' & p & ws & w' & A1 & A2 & A3 & A4 & A5 & A6).
      exists ic, jc, l, xt', yt', zt', p, ws, w'. repeat (split; [assumption|]). intros m Hm. rewrite N by lia. auto.
Qed.

(** ** The interpolation *)
Lemma max_weight (w : Z -> R) : exists m, max_weight_index [w 0%Z; w 1%Z; w 2%Z; w 3%Z] = Ok m /\ (0 <= m < 4)%Z /\ forall k, (0 <= k < 4)%Z -> w k <= w m.
Proof.
  set (ws := [w 0%Z; w 1%Z; w 2%Z; w 3%Z]).
  destruct (ofor_inv (fun i (m : Z) => (0 <= m < i)%Z /\ forall k, (0 <= k < i)%Z -> w k <= w m)
    (fun ind i => do a <- oget ws i ; do b <- oget ws ind ; Ok (if rlt b a then i else ind)) 1 3 0%Z) as (m & E & Hm & Hk); [lia| | |].
  - split; [lia|]. intros k Hk. replace k with 0%Z by lia. lra.
  - intros i m Hi (Hm & Hk). rewrite (oget_some ws i (w i)), (oget_some ws m (w m)) by (apply of4_get; auto; lia). cbn [bind]. eexists. split; [reflexivity|].
    destruct (rlt_cases (w m) (w i)) as [[-> H]|[-> H]].
    + split; [lia|]. intros k Hk'. destruct (Z.eq_dec k i) as [->|]; [lra|]. specialize (Hk k ltac:(lia)). lra.
    + split; [lia|]. intros k Hk'. destruct (Z.eq_dec k i) as [->|]; [lra|]. apply Hk. lia.
  - exists m. unfold max_weight_index. split; [exact E|]. auto.
Qed.

Section I.
  Variables (nx ny : Z) (fields : list (list R)) (index : list Z) (weight : list R) (has_missing : bool) (missing : R) (fill : bool) (n_out : Z).
  Variables (ic jc l : Z -> Z) (d w : Z -> Z -> R).
  Hypothesis Hn : (0 <= n_out)%Z.
  Hypothesis HI : forall n, (0 <= n < n_out)%Z -> found index n (ic n) (jc n) (l n).
  Hypothesis HD : forall n, (0 <= n < n_out)%Z -> exists f, zget fields (l n) = Some f /\
    forall m, (0 <= m < 4)%Z -> zget f (pos nx (ic n + fst (corner m)) (jc n + snd (corner m))) = Some (d n m).
  Hypothesis HW : forall n m, (0 <= n < n_out)%Z -> (0 <= m < 4)%Z -> zget weight (4 * n + m) = Some (w n m).

  Definition point_value (n : Z) : R :=
    if has_missing && existsb (fun m => if Req_EM_T (d n m) missing then true else false) [0; 1; 2; 3]%Z then
      (if fill then match max_weight_index [w n 0%Z; w n 1%Z; w n 2%Z; w n 3%Z] with Ok m => d n m | _ => 0 end else missing)
    else weighted (w n) (d n).

  Lemma point_ok n : interpolated has_missing missing fill (w n) (d n) (point_value n).
  Proof using has_missing missing fill d w.
    clear Hn HI HD HW ic jc l.
    unfold point_value. assert (K : existsb (fun m => if Req_EM_T (d n m) missing then true else false) [0; 1; 2; 3]%Z = true <-> exists m, (0 <= m < 4)%Z /\ d n m = missing).
    { rewrite existsb_exists. split.
      - intros (m & Hm & E). exists m. destruct (Req_EM_T (d n m) missing); [|discriminate]. split; auto. cbn [In] in Hm. lia.
      - intros (m & Hm & E). exists m. destruct (Req_EM_T (d n m) missing); [|contradiction]. split; auto. cbn [In]. lia. }
    destruct (existsb _ _) eqn:E.
    - destruct (proj1 K eq_refl) as (m & Hm & Em). split.
      + intros [->|H]; [reflexivity|]. exfalso. apply (H m Hm Em).
      + intros -> _. cbn [andb]. destruct fill; auto. destruct (max_weight (w n)) as (k & -> & Hk & M). eauto.
    - rewrite andb_false_r. split; auto. intros _ F. apply K in F. discriminate.
  Qed.

  Lemma c2l_spec out : zlen out = n_out -> exists out', c2l_interp nx ny fields index weight has_missing missing fill n_out out = Ok out'
    /\ zlen out' = n_out /\ forall n, (0 <= n < n_out)%Z -> zget out' n = Some (point_value n).
  Proof.
    intros L. unfold c2l_interp.
    match goal with |- context [ofor 0 n_out ?f out] => destruct (ofor_fill n_out f point_value out) as (o & E & Lo & G) end; [lia| |exists o; rewrite E; repeat split; auto; lia].
    intros o n H. destruct (HI n H) as (I0 & I1 & I2). rewrite (oget_some _ _ _ I0), (oget_some _ _ _ I1), (oget_some _ _ _ I2). cbn [bind].
    destruct (HD n H) as (f & F & D). rewrite (oget_some _ _ _ F). cbn [bind].
    pose proof (D 0%Z ltac:(lia)) as D0. pose proof (D 1%Z ltac:(lia)) as D1. pose proof (D 2%Z ltac:(lia)) as D2. pose proof (D 3%Z ltac:(lia)) as D3.
    unfold pos, corner in D0, D1, D2, D3. cbn [fst snd] in D0, D1, D2, D3.
    replace ((jc n + 0) * (nx + 2) + (ic n + 0))%Z with (jc n * (nx + 2) + ic n)%Z in D0 by ring.
    replace ((jc n + 1) * (nx + 2) + (ic n + 0))%Z with ((jc n + 1) * (nx + 2) + ic n)%Z in D1 by ring.
    replace ((jc n + 1) * (nx + 2) + (ic n + 1))%Z with ((jc n + 1) * (nx + 2) + ic n + 1)%Z in D2 by ring.
    replace ((jc n + 0) * (nx + 2) + (ic n + 1))%Z with (jc n * (nx + 2) + ic n + 1)%Z in D3 by ring.
    rewrite (oget_some _ _ _ D0), (oget_some _ _ _ D1), (oget_some _ _ _ D2), (oget_some _ _ _ D3). cbn [bind].
    pose proof (HW n 0%Z H ltac:(lia)) as W0. rewrite Z.add_0_r in W0.
    rewrite (oget_some _ _ _ W0), (oget_some _ _ _ (HW n 1%Z H ltac:(lia))), (oget_some _ _ _ (HW n 2%Z H ltac:(lia))), (oget_some _ _ _ (HW n 3%Z H ltac:(lia))). cbn [bind].
    unfold point_value. cbn [existsb]. rewrite orb_false_r, <- !orb_assoc.
    destruct (has_missing && _).
    - destruct fill; auto. destruct (max_weight (w n)) as (m & -> & Hm & _). cbn [bind].
      rewrite (oget_some _ m (d n m)) by (apply of4_get; auto). reflexivity.
    - f_equal. unfold weighted. ring.
  Qed.
End I.

(** ** Vectors *)
Lemma component_spec m n u v vlon vlat junk (U V : Z -> R) (LO LA : Z -> vec) : (0 <= m < 3)%Z -> (0 <= n)%Z -> zlen junk = n ->
  (forall k, (0 <= k < n)%Z -> zget u k = Some (U k) /\ zget v k = Some (V k) /\ unit_at vlon k (LO k) /\ unit_at vlat k (LA k)) ->
  exists c, component m n u v vlon vlat junk = Ok c /\ zlen c = n /\ forall k, (0 <= k < n)%Z -> zget c k = Some (comp m (vec_of (U k) (V k) (LO k) (LA k))).
Proof.
  intros Hm Hn L H. unfold component.
  match goal with |- context [ofor 0 n ?f junk] => destruct (ofor_fill n f (fun k => comp m (vec_of (U k) (V k) (LO k) (LA k))) junk) as (o & E & Lo & G) end; [lia| |exists o; rewrite E; repeat split; auto; lia].
  intros o k Hk. destruct (H k Hk) as (A & B & C & D). rewrite (oget_some _ _ _ A), (oget_some _ _ _ B), (oget_some _ _ _ (C m Hm)), (oget_some _ _ _ (D m Hm)). cbn [bind]. f_equal.
  unfold vec_of. destruct (LO k) as [[? ?] ?], (LA k) as [[? ?] ?]. unfold plus, scale, comp. assert (m = 0 \/ m = 1 \/ m = 2)%Z as [->|[->| ->]] by lia; ring.
Qed.

Lemma components_spec m n junk tiles (U V : Z -> Z -> R) (LO LA : Z -> Z -> vec) : (0 <= m < 3)%Z -> (0 <= n)%Z -> zlen junk = n ->
  (forall t, (0 <= t < zlen tiles)%Z -> exists u v vlon vlat, zget tiles t = Some ((u, v), (vlon, vlat)) /\
     forall k, (0 <= k < n)%Z -> zget u k = Some (U t k) /\ zget v k = Some (V t k) /\ unit_at vlon k (LO t k) /\ unit_at vlat k (LA t k)) ->
  exists cs, components m n junk tiles = Ok cs /\ zlen cs = zlen tiles /\
    forall t, (0 <= t < zlen tiles)%Z -> exists c, zget cs t = Some c /\ zlen c = n /\ forall k, (0 <= k < n)%Z -> zget c k = Some (comp m (vec_of (U t k) (V t k) (LO t k) (LA t k))).
Proof.
  intros Hm Hn L. revert U V LO LA. induction tiles as [|[[u v] [vlon vlat]] tiles IH]; intros U V LO LA H.
  - exists []. split; [reflexivity|]. split; auto. intros t Ht. unfold zlen in Ht. cbn in Ht. lia.
  - cbn [components]. pose proof (zlen_nonneg tiles). rewrite zlen_cons in *.
    destruct (H 0%Z ltac:(lia)) as (u' & v' & vlon' & vlat' & E0 & HH). injection E0 as <- <- <- <-.
    destruct (component_spec m n u v vlon vlat junk (U 0%Z) (V 0%Z) (LO 0%Z) (LA 0%Z) Hm Hn L HH) as (c & -> & Lc & Gc). cbn [bind].
    destruct (IH (fun t => U (t + 1)%Z) (fun t => V (t + 1)%Z) (fun t => LO (t + 1)%Z) (fun t => LA (t + 1)%Z)) as (cs & -> & Lcs & Gcs).
    { intros t Ht. destruct (H (t + 1)%Z ltac:(lia)) as (a & b & e & f & E & H1). exists a, b, e, f. split; auto.
      rewrite <- E. unfold zget. destruct (Z.ltb_spec t 0), (Z.ltb_spec (t + 1) 0); try lia. replace (Z.to_nat (t + 1)) with (S (Z.to_nat t)) by lia. reflexivity. }
    cbn [bind]. exists (c :: cs). split; auto. rewrite zlen_cons. split; [lia|]. intros t Ht. destruct (Z.eq_dec t 0) as [->|Ne].
    + exists c. auto.
    + destruct (Gcs (t - 1)%Z ltac:(lia)) as (c' & G & Lc' & Gk). exists c'. replace (t - 1 + 1)%Z with t in Gk by lia. split; auto.
      rewrite <- G. unfold zget. destruct (Z.ltb_spec t 0), (Z.ltb_spec (t - 1) 0); try lia. replace (Z.to_nat t) with (S (Z.to_nat (t - 1))) by lia. reflexivity.
Qed.

Lemma project_spec n x y z vdir junk (X Y Z' : Z -> R) (E : Z -> vec) : (0 <= n)%Z -> zlen junk = n ->
  (forall k, (0 <= k < n)%Z -> zget x k = Some (X k) /\ zget y k = Some (Y k) /\ zget z k = Some (Z' k) /\ unit_at vdir k (E k)) ->
  exists c, project n x y z vdir junk = Ok c /\ zlen c = n /\ forall k, (0 <= k < n)%Z -> zget c k = Some (dot (X k, Y k, Z' k) (E k)).
Proof.
  intros Hn L H. unfold project.
  match goal with |- context [ofor 0 n ?f junk] => destruct (ofor_fill n f (fun k => dot (X k, Y k, Z' k) (E k)) junk) as (o & E' & Lo & G) end; [lia| |exists o; rewrite E'; repeat split; auto; lia].
  intros o k Hk. destruct (H k Hk) as (A & B & C & D). pose proof (D 0%Z ltac:(lia)) as D0. rewrite Z.add_0_r in D0.
  rewrite (oget_some _ _ _ A), (oget_some _ _ _ B), (oget_some _ _ _ C), (oget_some _ _ _ D0), (oget_some _ _ _ (D 1%Z ltac:(lia))), (oget_some _ _ _ (D 2%Z ltac:(lia))).
  cbn [bind]. destruct (E k) as [[? ?] ?]. reflexivity.
Qed.

Lemma comp_weighted m (w : Z -> R) (a : Z -> vec) : (0 <= m < 3)%Z -> weighted w (fun k => comp m (a k)) = comp m (weighted_vec w a).
Proof.
  intros Hm. unfold weighted, weighted_vec. destruct (a 0%Z) as [[? ?] ?], (a 1%Z) as [[? ?] ?], (a 2%Z) as [[? ?] ?], (a 3%Z) as [[? ?] ?]. unfold plus, scale, comp.
  assert (m = 0 \/ m = 1 \/ m = 2)%Z as [->|[->| ->]] by lia; ring.
Qed.

Lemma vector_spec nx ny tiles vlon_out vlat_out index weight missing fill n_out jin jout
    (ic jc l : Z -> Z) (w : Z -> Z -> R) (U V : Z -> Z -> R) (LO LA : Z -> Z -> vec) (EO EA : Z -> vec) :
  (0 <= n_out)%Z -> (1 <= nx)%Z -> (1 <= ny)%Z -> zlen jin = ((nx + 2) * (ny + 2))%Z -> zlen jout = n_out ->
  (forall n, (0 <= n < n_out)%Z -> found index n (ic n) (jc n) (l n) /\ (0 <= ic n <= nx)%Z /\ (0 <= jc n <= ny)%Z /\ (0 <= l n < zlen tiles)%Z) ->
  (forall t, (0 <= t < zlen tiles)%Z -> exists u v vlon vlat, zget tiles t = Some ((u, v), (vlon, vlat)) /\
     forall k, (0 <= k < (nx + 2) * (ny + 2))%Z -> zget u k = Some (U t k) /\ zget v k = Some (V t k) /\ unit_at vlon k (LO t k) /\ unit_at vlat k (LA t k)) ->
  (forall n m, (0 <= n < n_out)%Z -> (0 <= m < 4)%Z -> zget weight (4 * n + m) = Some (w n m)) ->
  (forall n, (0 <= n < n_out)%Z -> unit_at vlon_out n (EO n) /\ unit_at vlat_out n (EA n)) ->
  exists u v, vector_bilinear nx ny tiles vlon_out vlat_out index weight false missing fill n_out jin jout = Ok (u, v)
  /\ zlen u = n_out /\ zlen v = n_out /\ forall n, (0 <= n < n_out)%Z ->
     let W := weighted_vec (w n) (fun m => let p := pos nx (ic n + fst (corner m)) (jc n + snd (corner m)) in vec_of (U (l n) p) (V (l n) p) (LO (l n) p) (LA (l n) p)) in
     zget u n = Some (dot W (EO n)) /\ zget v n = Some (dot W (EA n)).
Proof.
  intros Hn Nx Ny Lj Lo HI HT HW HE. unfold vector_bilinear. cbv zeta.
  set (P := fun n m => pos nx (ic n + fst (corner m)) (jc n + snd (corner m))).
  set (A := fun n m => vec_of (U (l n) (P n m)) (V (l n) (P n m)) (LO (l n) (P n m)) (LA (l n) (P n m))).
  assert (PR : forall n m, (0 <= n < n_out)%Z -> (0 <= m < 4)%Z -> (0 <= P n m < (nx + 2) * (ny + 2))%Z).
  { intros n m H Hm. destruct (HI n H) as (_ & Hi & Hj & _). unfold P, pos. destruct (four m Hm) as [->|[->|[->| ->]]]; cbn [corner fst snd]; nia. }
  assert (K : forall m, (0 <= m < 3)%Z -> exists o, (do f <- components m ((nx + 2) * (ny + 2)) jin tiles ; c2l_interp nx ny f index weight false missing fill n_out jout) = Ok o
    /\ zlen o = n_out /\ forall n, (0 <= n < n_out)%Z -> zget o n = Some (comp m (weighted_vec (w n) (A n)))).
  { intros m Hm. destruct (components_spec m ((nx + 2) * (ny + 2)) jin tiles U V LO LA Hm ltac:(nia) Lj HT) as (cs & -> & Lc & Gc). cbn [bind].
    destruct (c2l_spec nx ny cs index weight false missing fill n_out ic jc l (fun n k => comp m (A n k)) w) with (out := jout) as (o & E & Lo' & G); auto.
    - intros n H. apply HI; auto.
    - intros n H. destruct (HI n H) as (_ & _ & _ & Hl). destruct (Gc (l n) Hl) as (c & C1 & _ & C2). exists c. split; auto. intros k Hk. apply C2. apply (PR n k); auto.
    - exists o. split; auto. split; auto. intros n H. rewrite (G n H). f_equal.
      rewrite <- (comp_weighted m (w n) (A n) Hm). reflexivity. }
  destruct (K 0%Z ltac:(lia)) as (x & -> & Lx & Gx). destruct (K 1%Z ltac:(lia)) as (y & -> & Ly & Gy). destruct (K 2%Z ltac:(lia)) as (z & -> & Lz & Gz). cbn [bind].
  destruct (project_spec n_out x y z vlon_out jout (fun n => comp 0 (weighted_vec (w n) (A n))) (fun n => comp 1 (weighted_vec (w n) (A n))) (fun n => comp 2 (weighted_vec (w n) (A n))) EO Hn Lo) as (u & -> & Lu & Gu).
  { intros k Hk. repeat (split; [auto|]). apply HE; auto. }
  destruct (project_spec n_out x y z vlat_out jout (fun n => comp 0 (weighted_vec (w n) (A n))) (fun n => comp 1 (weighted_vec (w n) (A n))) (fun n => comp 2 (weighted_vec (w n) (A n))) EA Hn Lo) as (v & -> & Lv & Gv).
  { intros k Hk. repeat (split; [auto|]). apply HE; auto. }
  cbn [bind]. exists u, v. split; auto. split; auto. split; auto. intros n H. fold (P n).
  assert (S : forall a : vec, (comp 0 a, comp 1 a, comp 2 a) = a) by (intros [[? ?] ?]; reflexivity).
  rewrite (Gu n H), (Gv n H), S. split; reflexivity.
Qed.
