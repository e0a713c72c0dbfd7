(** C87: nested grids and global refinement of make_hgrid. *)
From Coq Require Import Reals ZArith List Bool Lia Lra Psatz.
From Verif Require Import Base Loops M_Interp M_Matrix P_Matrix P_Longitude P_Gnomonic2 P_Schmidt P_Bilinear P_Bilinear2 Spec_Gnomonic Spec_Schmidt Spec_Nest M_Nest P_Nest.
Import ListNotations.
Open Scope R_scope.

(** The point that divides an arc is unique, so [divides] says where it is. *)
Theorem C87_divides beta p q w w' : 0 < angle (at_ p) (at_ q) < PI -> divides beta (at_ p) (at_ q) w -> divides beta (at_ p) (at_ q) w' -> w = w'.
Proof. intros A. apply divides_unique; auto using unit_one. Qed.

(** One nest: inside its parent, halo included; its points divide the cells of the parent;
    nothing else is changed. *)
Theorem C87_nest pni pnj other po halo r is ie js je xy o gr xy' f :
  let ni := ((ie - is + 1) * r)%Z in let nj := ((je - js + 1) * r)%Z in
  (1 <= r)%Z -> (0 <= halo)%Z -> (is <= ie)%Z -> (js <= je)%Z -> (0 <= pni)%Z -> (0 <= pnj)%Z ->
  is_tile (match other with Some p => p | None => xy end) po pni pnj f -> in_turn pnj pni f ->
  (other = None -> (po + (pnj + 1) * (pni + 1) <= o \/ o + (nj + 1) * (ni + 1) <= po)%Z) ->
  setup_aligned_nest pni pnj other po halo r is ie js je xy o gr = Ok xy' ->
  (1 <= is - halo)%Z /\ (1 <= js - halo)%Z /\ (ie + halo <= pni)%Z /\ (je + halo <= pnj)%Z
  /\ (forall k, ~ (o <= k < o + (nj + 1) * (ni + 1))%Z -> zget (fst xy') k = zget (fst xy) k /\ zget (snd xy') k = zget (snd xy) k)
  /\ exists g, is_tile xy' o ni nj g /\ in_turn nj ni g
     /\ (forall j i, (0 <= j <= nj)%Z -> (0 <= i <= ni)%Z -> refined f r ((js - 1) * r + j) ((is - 1) * r + i) (g j i))
     /\ (forall j i, (0 <= j <= je - js + 1)%Z -> (0 <= i <= ie - is + 1)%Z -> g (j * r)%Z (i * r)%Z = f (js - 1 + j)%Z (is - 1 + i)%Z).
Proof.
  intros ni nj Hr Hh Hi Hj Pi Pj T TT D H.
  destruct (setup_ok pni pnj other po halo r is ie js je xy o gr f Hr Hh ltac:(lia) ltac:(lia) T Pi Pj D xy' H) as (A1 & A2 & A3 & A4 & (_ & _ & O) & F).
  repeat (split; [assumption|]).
  set (g := fun j i => match fine_pt f r ((js - 1) * r + j) ((is - 1) * r + i) with Ok t => t | _ => (0, 0) end).
  assert (FG : forall j i, (0 <= j <= nj)%Z -> (0 <= i <= ni)%Z -> fine_pt f r ((js - 1) * r + j) ((is - 1) * r + i) = Ok (g j i) /\ stored xy' o ni j i (g j i) /\ 0 <= fst (g j i) <= 2 * PI).
  { intros j i Kj Ki. destruct (F j i ltac:(unfold nj in *; lia) ltac:(unfold ni in *; lia)) as (t & FT & ST).
    assert (Tt : 0 <= fst t <= 2 * PI).
    { refine (fine_turn f r _ _ t pnj pni Hr TT _ _ FT).
      - destruct (shift_div js j r Hr) as [-> _]. assert ((0 <= j / r <= je - js + 1)%Z) by (split; [apply Z.div_pos; lia|apply Z.div_le_upper_bound; unfold nj in *; lia]). lia.
      - destruct (shift_div is i r Hr) as [-> _]. assert ((0 <= i / r <= ie - is + 1)%Z) by (split; [apply Z.div_pos; lia|apply Z.div_le_upper_bound; unfold ni in *; lia]). lia. }
    rewrite (wrap_id t Tt) in ST. replace ((ie - is + 1) * r + 1 - 1)%Z with ni in ST by (unfold ni; lia). unfold g. rewrite FT. auto. }
  exists g. split; [|split; [|split]].
  - intros j i Kj Ki. apply FG; auto.
  - intros j i Kj Ki. apply FG; auto.
  - intros j i Kj Ki. apply fine_ok; auto. apply FG; auto.
  - intros j i Kj Ki. destruct (FG (j * r)%Z (i * r)%Z ltac:(unfold nj; nia) ltac:(unfold ni; nia)) as (FT & _).
    unfold fine_pt, line_pt in FT. replace ((js - 1) * r + j * r)%Z with ((js - 1 + j) * r)%Z in FT by ring. replace ((is - 1) * r + i * r)%Z with ((is - 1 + i) * r)%Z in FT by ring.
    rewrite !Z.mod_mul, !Z.div_mul in FT by lia. cbn in FT. injection FT as <-. reflexivity.
Qed.

(** A nest that with its halo does not lie in its parent is refused. *)
Theorem C87_refused pni pnj other po halo r is ie js je xy o gr :
  (is - halo < 1 \/ js - halo < 1 \/ pni < ie + halo \/ pnj < je + halo)%Z ->
  setup_aligned_nest pni pnj other po halo r is ie js je xy o gr = Err 4.
Proof.
  intros H. unfold setup_aligned_nest.
  assert (C : ((js - halo <? 1) || (is - halo <? 1) || (pnj <? je + halo) || (pni <? ie + halo))%Z = true).
  { rewrite !orb_true_iff, !Z.ltb_lt. destruct H as [H|[H|[H|H]]]; auto. }
  rewrite C. reflexivity.
Qed.

(** A nest inside its parent is made, if the arcs that are divided are neither too short
    (1e-5 radians, 64 m) nor half circles. *)
Theorem C87_defined pni pnj other po halo r is ie js je xy o gr f :
  let ni := ((ie - is + 1) * r)%Z in let nj := ((je - js + 1) * r)%Z in
  let arc p q := 1 / 100000 <= angle (at_ p) (at_ q) < PI in
  (1 <= r)%Z -> (0 <= halo)%Z -> (is <= ie)%Z -> (js <= je)%Z -> (0 <= pni)%Z -> (0 <= pnj)%Z ->
  (1 <= is - halo)%Z -> (1 <= js - halo)%Z -> (ie + halo <= pni)%Z -> (je + halo <= pnj)%Z -> (gr = true \/ 0 < halo)%Z ->
  is_tile (match other with Some p => p | None => xy end) po pni pnj f ->
  (other = None -> (po + (pnj + 1) * (pni + 1) <= o \/ o + (nj + 1) * (ni + 1) <= po)%Z) ->
  (0 <= o)%Z -> (o + (nj + 1) * (ni + 1) <= zlen (fst xy))%Z -> (o + (nj + 1) * (ni + 1) <= zlen (snd xy))%Z ->
  (forall j c, (js - 1 <= j < je)%Z -> (0 <= c <= pni)%Z -> ~ close (f j c) (f (j + 1)%Z c) -> arc (f j c) (f (j + 1)%Z c)) ->
  (forall jj c q1 q2, ((js - 1) * r <= jj <= je * r)%Z -> (is - 1 <= c < ie)%Z -> on_line f r jj c q1 -> on_line f r jj (c + 1) q2 -> ~ close q1 q2 -> arc q1 q2) ->
  exists xy', setup_aligned_nest pni pnj other po halo r is ie js je xy o gr = Ok xy'.
Proof.
  intros ni nj arc Hr Hh Hi Hj Pi Pj A1 A2 A3 A4 Hg T D Ho Lx Ly HV HH.
  assert (HL : forall j c, (0 <= j < nj + 1)%Z -> (0 <= c <= pni)%Z -> exists q, line_pt f r ((js - 1) * r + j) c = Ok q).
  { intros j c Kj Kc. unfold line_pt. destruct (shift_div js j r Hr) as [-> ->]. destruct (Z.eqb_spec (j mod r) 0) as [|N]; [eauto|].
    apply slerp_defined; [apply frac; auto|]. apply HV; auto. pose proof (Z.div_mod j r ltac:(lia)). pose proof (Z.mod_pos_bound j r ltac:(lia)).
    assert ((0 <= j / r)%Z) by (apply Z.div_pos; lia). assert ((j / r < je - js + 1)%Z) by (unfold nj in *; nia). lia. }
  apply (setup_defined pni pnj other po halo r is ie js je xy o gr f); auto; try lia.
  intros j i Kj Ki. unfold fine_pt. destruct (shift_div is i r Hr) as [-> ->].
  assert (Ii : (0 <= i / r <= ie - is + 1)%Z) by (split; [apply Z.div_pos; lia|apply Z.div_le_upper_bound; unfold ni in *; lia]).
  destruct (HL j (is - 1 + i / r)%Z ltac:(unfold nj; lia) ltac:(lia)) as (q1 & E1).
  destruct (Z.eqb_spec (i mod r) 0) as [|N]; [eauto|].
  assert (Mi : (i / r < ie - is + 1)%Z). { pose proof (Z.div_mod i r ltac:(lia)). pose proof (Z.mod_pos_bound i r ltac:(lia)). nia. }
  destruct (HL j (is - 1 + i / r + 1)%Z ltac:(unfold nj; lia) ltac:(lia)) as (q2 & E2). rewrite E1, E2. cbn [bind].
  apply slerp_defined; [apply frac; auto|]. apply (HH ((js - 1) * r + j)%Z (is - 1 + i / r)%Z); [nia|lia|apply line_ok; auto|apply line_ok; auto].
Qed.

(** Two nests of the same parent with the same ratio agree where they overlap. *)
Theorem C87_agree pni pnj po r f xy
    halo is ie js je s o gr s' halo2 is2 ie2 js2 je2 s2 o2 gr2 s2' j i j2 i2 :
  (1 <= r)%Z -> (0 <= halo)%Z -> (is <= ie)%Z -> (js <= je)%Z -> (0 <= halo2)%Z -> (is2 <= ie2)%Z -> (js2 <= je2)%Z -> (0 <= pni)%Z -> (0 <= pnj)%Z ->
  is_tile xy po pni pnj f ->
  setup_aligned_nest pni pnj (Some xy) po halo r is ie js je s o gr = Ok s' ->
  setup_aligned_nest pni pnj (Some xy) po halo2 r is2 ie2 js2 je2 s2 o2 gr2 = Ok s2' ->
  (0 <= j <= (je - js + 1) * r)%Z -> (0 <= i <= (ie - is + 1) * r)%Z -> (0 <= j2 <= (je2 - js2 + 1) * r)%Z -> (0 <= i2 <= (ie2 - is2 + 1) * r)%Z ->
  ((js - 1) * r + j = (js2 - 1) * r + j2)%Z -> ((is - 1) * r + i = (is2 - 1) * r + i2)%Z ->
  exists p, stored s' o ((ie - is + 1) * r) j i p /\ stored s2' o2 ((ie2 - is2 + 1) * r) j2 i2 p.
Proof.
  intros Hr Hh Hi Hj Hh2 Hi2 Hj2 Pi Pj T H H2 Kj Ki Kj2 Ki2 Ej Ei.
  destruct (setup_ok pni pnj (Some xy) po halo r is ie js je s o gr f Hr Hh ltac:(lia) ltac:(lia) T Pi Pj ltac:(discriminate) s' H) as (_ & _ & _ & _ & _ & F).
  destruct (setup_ok pni pnj (Some xy) po halo2 r is2 ie2 js2 je2 s2 o2 gr2 f Hr Hh2 ltac:(lia) ltac:(lia) T Pi Pj ltac:(discriminate) s2' H2) as (_ & _ & _ & _ & _ & F2).
  destruct (F j i ltac:(lia) ltac:(lia)) as (t & E & S). destruct (F2 j2 i2 ltac:(lia) ltac:(lia)) as (t2 & E2 & S2).
  rewrite Ej, Ei, E2 in E. injection E as ->. exists (wrap t). rewrite Z.add_simpl_r in S, S2. auto.
Qed.

(** Global refinement: every tile is refined, and tiles that share a side still do. *)
Theorem C87_global ni r coarse junk out f : let ni' := (ni * r)%Z in
  (1 <= ni)%Z -> (1 <= r)%Z ->
  (forall t, (0 <= t < 6)%Z -> is_tile coarse ((ni + 1) * (ni + 1) * t) ni ni (f t) /\ in_turn ni ni (f t)) ->
  global_refinement ni r coarse junk = Ok out ->
  exists g, forall t, (0 <= t < 6)%Z -> is_tile out ((ni' + 1) * (ni' + 1) * t) ni' ni' (g t) /\ in_turn ni' ni' (g t)
  /\ (forall j i, (0 <= j <= ni')%Z -> (0 <= i <= ni')%Z -> refined (f t) r j i (g t j i))
  /\ forall t' s s' opposite, (0 <= t' < 6)%Z -> share ni (f t) s (f t') s' opposite ->
     (opposite = true -> forall k, (0 <= k < ni)%Z -> ~ close (on_side ni s' (f t') k) (on_side ni s' (f t') (k + 1))) -> share ni' (g t) s (g t') s' opposite.
Proof.
  intros ni' Hn Hr Hf H. set (g := fun t j i => match fine_pt (f t) r j i with Ok p => p | _ => (0, 0) end).
  assert (K : forall t, (0 <= t < 6)%Z -> is_tile out ((ni' + 1) * (ni' + 1) * t) ni' ni' (g t) /\ forall j i, (0 <= j <= ni')%Z -> (0 <= i <= ni')%Z -> fine_pt (f t) r j i = Ok (g t j i) /\ 0 <= fst (g t j i) <= 2 * PI).
  { refine (ofor_ok_inv (fun k s => forall t, (0 <= t < k)%Z -> is_tile s ((ni' + 1) * (ni' + 1) * t) ni' ni' (g t) /\ forall j i, (0 <= j <= ni')%Z -> (0 <= i <= ni')%Z -> fine_pt (f t) r j i = Ok (g t j i) /\ 0 <= fst (g t j i) <= 2 * PI)
      6 _ junk out ltac:(lia) H _ _); [intros; lia|].
    intros k s s1 Hk P E. fold ni' in E. destruct (Hf k Hk) as [T TT].
    destruct (setup_ok ni ni (Some coarse) ((ni + 1) * (ni + 1) * k) 0 r 1 ni 1 ni s ((ni' + 1) * (ni' + 1) * k) true (f k) Hr ltac:(lia) ltac:(lia) ltac:(lia) T ltac:(lia) ltac:(lia) ltac:(discriminate) s1 E) as (_ & _ & _ & _ & O & F).
    assert (EN : ((ni - 1 + 1) * r + 1 = ni' + 1)%Z) by (unfold ni'; lia). rewrite EN in O, F.
    intros t Ht. destruct (Z.eq_dec t k) as [->|Ne].
    - assert (FG : forall j i, (0 <= j <= ni')%Z -> (0 <= i <= ni')%Z -> fine_pt (f k) r j i = Ok (g k j i) /\ 0 <= fst (g k j i) <= 2 * PI /\ stored s1 ((ni' + 1) * (ni' + 1) * k) ni' j i (g k j i)).
      { intros j i Kj Ki. destruct (F j i ltac:(lia) ltac:(lia)) as (p & FT & ST). change ((1 - 1) * r + j)%Z with j in FT. change ((1 - 1) * r + i)%Z with i in FT.
        assert (Dj : (0 <= j / r <= ni)%Z) by (split; [apply Z.div_pos; lia|apply Z.div_le_upper_bound; unfold ni' in *; lia]).
        assert (Di : (0 <= i / r <= ni)%Z) by (split; [apply Z.div_pos; lia|apply Z.div_le_upper_bound; unfold ni' in *; lia]).
        pose proof (fine_turn (f k) r j i p ni ni Hr TT Dj Di FT) as TP. rewrite (wrap_id p TP) in ST. replace (ni' + 1 - 1)%Z with ni' in ST by lia. unfold g. rewrite FT. auto. }
      split; [intros j i Kj Ki; apply FG; auto|]. intros j i Kj Ki. destruct (FG j i Kj Ki) as (X & Y & _). auto.
    - destruct (P t ltac:(lia)) as [A B]. split; auto. assert (N0 : (0 <= ni')%Z) by (unfold ni'; nia). apply (only_tile s s1 _ _ _ ni' ni' _ O N0 N0); auto.
      left. replace ((ni' + 1) * (ni' + 1) * t + (ni' + 1) * (ni' + 1))%Z with ((ni' + 1) * (ni' + 1) * (t + 1))%Z by ring. apply Z.mul_le_mono_nonneg_l; [apply Z.mul_nonneg_nonneg; lia|lia]. }
  exists g. intros t Ht. destruct (K t Ht) as [A B]. split; auto. split; [intros j i Kj Ki; apply B; auto|]. split; [intros j i Kj Ki; apply fine_ok; auto; apply B; auto|].
  intros t' s s' opp Ht' SH NC k Hk. destruct (K t' Ht') as [_ B'].
  assert (SE : forall f g s k, (0 <= k <= ni')%Z -> (forall j i, (0 <= j <= ni')%Z -> (0 <= i <= ni')%Z -> fine_pt f r j i = Ok (g j i)) -> edge_pt (on_side ni s f) r k = Ok (on_side ni' s g k)).
  { intros f0 g0 s0 k0 H0 E0. rewrite <- (side_edge f0 ni r s0 k0 Hr). fold ni'. destruct s0; unfold on_side; apply E0; lia. }
  assert (E1 := SE (f t) (g t) s k Hk (fun j i Hj Hi => proj1 (B j i Hj Hi))).
  assert (E2 := SE (f t') (g t') s' (if opp then ni' - k else k)%Z ltac:(destruct opp; lia) (fun j i Hj Hi => proj1 (B' j i Hj Hi))).
  assert (Dk : (0 <= k / r <= ni)%Z) by (split; [apply Z.div_pos; lia|apply Z.div_le_upper_bound; unfold ni' in *; lia]).
  assert (Mk : (k mod r <> 0 -> k / r + 1 <= ni)%Z). { intros N. pose proof (Z.div_mod k r ltac:(lia)). pose proof (Z.mod_pos_bound k r ltac:(lia)). unfold ni' in *. nia. }
  assert (E3 : edge_pt (on_side ni s (f t)) r k = edge_pt (on_side ni s' (f t')) r (if opp then ni' - k else k)%Z).
  { assert (X : edge_pt (on_side ni s (f t)) r k = edge_pt (fun m => on_side ni s' (f t') (if opp then ni - m else m)%Z) r k).
    { unfold edge_pt. rewrite (SH (k / r)%Z Dk). destruct (Z.eqb_spec (k mod r) 0); auto. rewrite (SH (k / r + 1)%Z) by (specialize (Mk n); lia). reflexivity. }
    rewrite X. destruct opp; [|reflexivity]. unfold ni'. apply (edge_rev (on_side ni s' (f t')) ni r k Hr Hk). auto. }
  rewrite E3, E2 in E1. injection E1 as E1. symmetry. exact E1.
Qed.

(** ** All nests of a grid *)
Lemma offset_succ sizes t a b : (0 <= t)%Z -> zget sizes t = Some (a, b) -> offset sizes (Z.to_nat (t + 1)) = (offset sizes (Z.to_nat t) + (a + 1) * (b + 1))%Z.
Proof.
  intros Ht H. replace (Z.to_nat (t + 1)) with (S (Z.to_nat t)) by lia. unfold zget in H. destruct (t <? 0)%Z eqn:E; [lia|].
  revert sizes H. induction (Z.to_nat t) as [|n IH]; intros [|[x y] sizes] H; try discriminate.
  - injection H as -> ->. cbn [offset]. destruct sizes as [|[? ?] ?]; cbn [offset]; lia.
  - cbn [nth_error] in H. specialize (IH sizes H). cbn [offset] in *. rewrite IH. destruct sizes as [|[? ?] ?]; cbn [offset]; lia.
Qed.
Lemma offset_le sizes t t' a b : (forall k x y, zget sizes k = Some (x, y) -> (0 <= x /\ 0 <= y)%Z) -> (0 <= t < t')%Z -> (t' <= zlen sizes)%Z ->
  zget sizes t = Some (a, b) -> (offset sizes (Z.to_nat t) + (b + 1) * (a + 1) <= offset sizes (Z.to_nat t'))%Z.
Proof.
  intros P Ht L H. assert (Q : forall n, (0 <= n)%Z -> (t + 1 + n <= zlen sizes)%Z -> (offset sizes (Z.to_nat t) + (b + 1) * (a + 1) <= offset sizes (Z.to_nat (t + 1 + n)))%Z).
  { apply (natlike_ind (fun n => (t + 1 + n <= zlen sizes)%Z -> (offset sizes (Z.to_nat t) + (b + 1) * (a + 1) <= offset sizes (Z.to_nat (t + 1 + n)))%Z)).
    - intros _. rewrite Z.add_0_r, (offset_succ sizes t a b) by (auto; lia). lia.
    - intros n Hn IH Ln. destruct (zget_in_range sizes (t + 1 + n)%Z ltac:(lia)) as ([x y] & E). replace (t + 1 + Z.succ n)%Z with (t + 1 + n + 1)%Z by lia.
      rewrite (offset_succ sizes _ x y) by (auto; lia). specialize (IH ltac:(lia)). destruct (P _ _ _ E). nia. }
  replace t' with (t + 1 + (t' - t - 1))%Z by lia. apply Q; lia.
Qed.

(** The six tiles keep their points; every nest divides the cells of the tile named as its
    parent, which may be a nest before it. *)
Theorem C87_nests ni halo nests xy xy' f : (1 <= ni)%Z -> (0 <= halo)%Z ->
  (forall k n, zget nests k = Some n -> (1 <= parent_tile n <= 6 + k)%Z /\ (1 <= ratio n)%Z /\ (istart n <= iend n)%Z /\ (jstart n <= jend n)%Z) ->
  (forall t, (0 <= t < 6)%Z -> is_tile xy (tile_offset ni nests t) ni ni (f t) /\ in_turn ni ni (f t)) ->
  setup_nests ni halo nests xy = Ok xy' ->
  exists g, (forall t, (0 <= t < 6)%Z -> is_tile xy' (tile_offset ni nests t) ni ni (g t) /\ g t = f t)
  /\ forall k n, zget nests k = Some n ->
     is_tile xy' (tile_offset ni nests (6 + k)) (fst (nest_size n)) (snd (nest_size n)) (g (6 + k)%Z)
     /\ forall j i, (0 <= j <= snd (nest_size n))%Z -> (0 <= i <= fst (nest_size n))%Z ->
        refined (g (parent_tile n - 1)%Z) (ratio n) ((jstart n - 1) * ratio n + j) ((istart n - 1) * ratio n + i) (g (6 + k)%Z j i).
Proof.
  intros Hn Hh HN HF H. unfold setup_nests in H. destruct (negb _); [discriminate|].
  set (sizes := tile_sizes ni nests) in *.
  assert (Ls : zlen sizes = (6 + zlen nests)%Z). { unfold sizes, tile_sizes, zlen. rewrite app_length, map_length, repeat_length. lia. }
  assert (S6 : forall t, (0 <= t < 6)%Z -> zget sizes t = Some (ni, ni)).
  { intros t Ht. unfold sizes, tile_sizes. assert (t = 0 \/ t = 1 \/ t = 2 \/ t = 3 \/ t = 4 \/ t = 5)%Z as [->|[->|[->|[->|[->| ->]]]]] by lia; reflexivity. }
  assert (Sn : forall k n, zget nests k = Some n -> zget sizes (6 + k) = Some (nest_size n)).
  { intros k n E. pose proof (zget_Some_range _ _ _ E) as B. unfold zget in *. destruct (k <? 0)%Z eqn:Ek; [lia|]. destruct (6 + k <? 0)%Z eqn:Ek'; [lia|].
    replace (Z.to_nat (6 + k)) with (6 + Z.to_nat k)%nat by lia. unfold sizes, tile_sizes. rewrite nth_error_app2 by (rewrite repeat_length; lia). rewrite repeat_length.
    replace (6 + Z.to_nat k - 6)%nat with (Z.to_nat k) by lia. apply map_nth_error. auto. }
  assert (NZ : forall k n, zget nests k = Some n -> (0 <= fst (nest_size n) /\ 0 <= snd (nest_size n))%Z).
  { intros k n E. destruct (HN k n E) as (_ & A & B & C). unfold nest_size. cbn [fst snd]. split; nia. }
  assert (SP : forall t x y, zget sizes t = Some (x, y) -> (0 <= x /\ 0 <= y)%Z).
  { intros t x y E. pose proof (zget_Some_range _ _ _ E) as B. destruct (Z_lt_le_dec t 6) as [L|L].
    - rewrite S6 in E by lia. injection E as <- <-. lia.
    - destruct (zget_in_range nests (t - 6)%Z ltac:(lia)) as (n & En). pose proof (Sn _ _ En) as Q. replace (6 + (t - 6))%Z with t in Q by lia. rewrite Q in E. assert (E' : nest_size n = (x, y)) by congruence.
      pose proof (NZ _ _ En) as Z. rewrite E' in Z. exact Z. }
  assert (OL : forall t t' a b, (0 <= t < t')%Z -> (t' <= 6 + zlen nests)%Z -> zget sizes t = Some (a, b) -> (tile_offset ni nests t + (b + 1) * (a + 1) <= tile_offset ni nests t')%Z).
  { intros t t' a b Ht L E. apply offset_le; auto. fold sizes. lia. }
  set (Inv := fun (k : Z) (s : list R * list R) => exists g,
    (forall t a b, (0 <= t < 6 + k)%Z -> zget sizes t = Some (a, b) -> is_tile s (tile_offset ni nests t) a b (g t) /\ in_turn b a (g t))
    /\ (forall t, (0 <= t < 6)%Z -> g t = f t)
    /\ forall m n, (m < k)%Z -> zget nests m = Some n -> forall j i, (0 <= j <= snd (nest_size n))%Z -> (0 <= i <= fst (nest_size n))%Z ->
        refined (g (parent_tile n - 1)%Z) (ratio n) ((jstart n - 1) * ratio n + j) ((istart n - 1) * ratio n + i) (g (6 + m)%Z j i)).
  assert (K : Inv (zlen nests) xy').
  { refine (ofor_ok_inv Inv (zlen nests) _ xy xy' (Zle_0_nat _) H _ _).
    - exists f. split; [|split; auto]; [|intros m n Hm E; pose proof (zget_Some_range _ _ _ E); lia].
      intros t a b Ht E. rewrite S6 in E by lia. injection E as <- <-. apply HF. lia.
    - intros k s s1 Hk (g & G1 & G2 & G3) E. apply bind_ok in E as (n & En & E). apply oget_Ok in En. apply bind_ok in E as ([pi pj] & EP & E).
      destruct (HN k n En) as (Hp & Hr & Hi & Hj). rewrite (proj2 (Z.ltb_ge (parent_tile n) 1)) in E by lia.
      assert (PS : zget sizes (parent_tile n - 1) = Some (pi, pj)).
      { unfold parent_size in EP. destruct (Z.leb_spec (parent_tile n) 6) as [L|L].
        - injection EP as <- <-. apply S6. lia.
        - apply bind_ok in EP as (m & Em & EP). apply oget_Ok in Em. rewrite (proj2 (Z.leb_le (parent_tile n - 7) k)) in EP by lia. assert (EP' : nest_size m = (pi, pj)) by congruence.
          pose proof (Sn _ _ Em) as Q. replace (6 + (parent_tile n - 7))%Z with (parent_tile n - 1)%Z in Q by lia. rewrite Q, EP'. reflexivity. }
      destruct (SP _ _ _ PS) as [Pi Pj]. destruct (G1 (parent_tile n - 1)%Z pi pj ltac:(lia) PS) as [GT GI].
      pose proof (Sn _ _ En) as Sk. unfold nest_size in Sk.
      destruct (C87_nest pi pj None (tile_offset ni nests (parent_tile n - 1)) halo (ratio n) (istart n) (iend n) (jstart n) (jend n) s (tile_offset ni nests (6 + k)) false s1 (g (parent_tile n - 1)%Z)
        Hr Hh Hi Hj Pi Pj GT GI) as (_ & _ & _ & _ & O & q & Q1 & Q2 & Q3 & _).
      { intros _. left. apply OL; auto; lia. } { exact E. }
      exists (fun t => if (t =? 6 + k)%Z then q else g t). split; [|split].
      + intros t a b Ht Et. destruct (Z.eqb_spec t (6 + k)) as [->|Ne].
        * rewrite Sk in Et. injection Et as <- <-. auto.
        * destruct (G1 t a b ltac:(lia) Et) as [A B]. split; auto. intros j i Kj Ki. destruct (SP _ _ _ Et) as [Sa Sb].
          pose proof (OL t (6 + k)%Z a b ltac:(lia) ltac:(lia) Et) as OO.
          destruct (O (tile_offset ni nests t + (j * (a + 1) + i))%Z ltac:(nia)) as [X Y]. unfold stored. rewrite X, Y. apply A; auto.
      + intros t Ht. rewrite (proj2 (Z.eqb_neq t (6 + k))) by lia. auto.
      + intros m n' Hm Em j i Kj Ki. destruct (HN m n' Em) as (Hp' & _). rewrite (proj2 (Z.eqb_neq (parent_tile n' - 1) (6 + k))) by lia.
        destruct (Z.eqb_spec (6 + m) (6 + k)) as [Q|Ne].
        * assert (m = k) by lia. subst m. rewrite En in Em. injection Em as <-. apply Q3; auto.
        * apply (G3 m n'); auto. lia. }
  destruct K as (g & G1 & G2 & G3). exists g. split.
  - intros t Ht. split; auto. pose proof (Zle_0_nat (length nests)). apply (G1 t ni ni); [unfold zlen; lia|auto].
  - intros k n E. pose proof (zget_Some_range _ _ _ E). split; [|apply (G3 k n); auto; lia].
    pose proof (Sn k n E) as Q. apply (G1 (6 + k)%Z (fst (nest_size n)) (snd (nest_size n))); [lia|]. rewrite Q. destruct (nest_size n); auto.
Qed.

(** A parent of 3 by 3 cells, with rows from pole to pole; its middle cell is refined by 2. *)
Definition ex_f (j i : Z) : point := (IZR i * (PI / 2), IZR j * (PI / 3) - PI / 2).
Definition ex_xy : list R * list R := (map (fun n => fst (ex_f (n / 4) (n mod 4))) (zseq 0 25), map (fun n => snd (ex_f (n / 4) (n mod 4))) (zseq 0 25)).

Lemma arc_ok d : -1 < d <= 1 / 2 -> 1 / 100000 <= acos d < PI.
Proof.
  intros H. pose proof (acos_bound d) as B. pose proof PI_RGT_0 as HP. pose proof PI2_1 as H1. pose proof (cos_acos d ltac:(lra)) as E. split.
  - apply Rnot_lt_le. intros L. pose proof (cos_decreasing_1 (acos d) (PI / 3) ltac:(lra) ltac:(lra) ltac:(lra) ltac:(lra) ltac:(lra)) as Q. rewrite E, cos_PI3 in Q. lra.
  - destruct (Rle_lt_or_eq_dec _ _ (proj2 B)) as [L|L]; auto. rewrite L, cos_PI in E. lra.
Qed.
Lemma ex_dot j c : dot (at_ (ex_f j c)) (at_ (ex_f (j + 1)%Z c)) = 1 / 2.
Proof.
  unfold at_, unit, dot, ex_f. cbn [fst snd]. rewrite plus_IZR. set (a := IZR c * (PI / 2)). set (b := IZR j * (PI / 3) - PI / 2).
  replace ((IZR j + 1) * (PI / 3) - PI / 2) with (b + PI / 3) by (unfold b; field).
  replace (cos b * cos a * (cos (b + PI / 3) * cos a) + cos b * sin a * (cos (b + PI / 3) * sin a) + sin b * sin (b + PI / 3)) with ((sin a * sin a + cos a * cos a) * (cos (b + PI / 3) * cos b) + sin (b + PI / 3) * sin b) by ring.
  pose proof (sin2_cos2 a) as E. unfold Rsqr in E. rewrite E, Rmult_1_l, <- cos_minus. replace (b + PI / 3 - b) with (PI / 3) by ring. apply cos_PI3.
Qed.
Lemma ex_apart j c : ~ close (ex_f j c) (ex_f (j + 1)%Z c).
Proof.
  intros [_ H]. unfold ex_f in H. cbn [snd] in H. rewrite plus_IZR in H. pose proof PI2_1.
  replace (IZR j * (PI / 3) - PI / 2 - ((IZR j + 1) * (PI / 3) - PI / 2)) with (- (PI / 3)) in H by field. rewrite Rabs_Ropp, Rabs_pos_eq in H by lra. lra.
Qed.
(** The middle of the arc from 30 degrees south to 30 degrees north. *)
Lemma ex_mid c q : (c = 1 \/ c = 2)%Z -> between (1 / 2) (ex_f 1 c) (ex_f 2 c) q -> at_ q = (cos (IZR c * (PI / 2)), sin (IZR c * (PI / 2)), 0).
Proof.
  intros Hc [[C _]|(_ & w & D & L)]; [destruct (ex_apart 1 c C)|]. set (a := IZR c * (PI / 2)).
  pose proof PI_RGT_0 as HP. pose proof (ex_dot 1 c) as E. change (1 + 1)%Z with 2%Z in E.
  assert (A : angle (at_ (ex_f 1 c)) (at_ (ex_f 2 c)) = PI / 3). { unfold angle. rewrite E, <- cos_PI3. apply acos_cos. lra. }
  assert (D' : divides (1 / 2) (at_ (ex_f 1 c)) (at_ (ex_f 2 c)) (cos a, sin a, 0)).
  { pose proof (sin2_cos2 a) as S. unfold Rsqr in S. split; [unfold dot; lra|]. rewrite A. unfold angle.
    assert (X : dot (at_ (ex_f 1 c)) (cos a, sin a, 0) = cos (PI / 6)).
    { unfold at_, unit, dot, ex_f. cbn [fst snd]. fold a. replace (1 * (PI / 3) - PI / 2) with (- (PI / 6)) by field. rewrite cos_neg. replace (cos (PI / 6)) with (cos (PI / 6) * (sin a * sin a + cos a * cos a)) at 3 by (rewrite S; ring). ring. }
    assert (Y : dot (cos a, sin a, 0) (at_ (ex_f 2 c)) = cos (PI / 6)).
    { unfold at_, unit, dot, ex_f. cbn [fst snd]. fold a. replace (2 * (PI / 3) - PI / 2) with (PI / 6) by field. replace (cos (PI / 6)) with (cos (PI / 6) * (sin a * sin a + cos a * cos a)) at 3 by (rewrite S; ring). ring. }
    rewrite X, Y, acos_cos by lra. split; field. }
  assert (W : w = (cos a, sin a, 0)) by (apply (C87_divides (1 / 2) (ex_f 1 c) (ex_f 2 c)); auto; rewrite A; lra).
  subst w. destruct L as (_ & _ & Lz & [Lw|(_ & Lp)]); auto. exfalso.
  assert (1 <= Rabs (cos a) + Rabs (sin a)).
  { unfold a. destruct Hc as [-> | ->].
    - replace (1 * (PI / 2)) with (PI / 2) by ring. rewrite cos_PI2, sin_PI2, Rabs_R0, Rabs_R1. lra.
    - replace (2 * (PI / 2)) with PI by field. rewrite cos_PI, sin_PI, Rabs_R0, (Rabs_left (-1)) by lra. lra. }
  lra.
Qed.

Example C87_nest_example : is_tile ex_xy 0 3 3 ex_f /\ exists xy', setup_aligned_nest 3 3 None 0 1 2 2 2 2 2 ex_xy 16 false = Ok xy'.
Proof.
  assert (T : is_tile ex_xy 0 3 3 ex_f).
  { intros j i Hj Hi. assert (j = 0 \/ j = 1 \/ j = 2 \/ j = 3)%Z as [->|[->|[->| ->]]] by lia; assert (i = 0 \/ i = 1 \/ i = 2 \/ i = 3)%Z as [->|[->|[->| ->]]] by lia; split; reflexivity. }
  split; auto. apply (C87_defined 3 3 None 0 1 2 2 2 2 2 ex_xy 16 false ex_f); auto; try lia.
  - unfold ex_xy. cbn [fst]. rewrite zlen_map, zlen_zseq; lia.
  - unfold ex_xy. cbn [snd]. rewrite zlen_map, zlen_zseq; lia.
  - intros j c Hj Hc _. unfold angle. rewrite ex_dot. apply arc_ok. lra.
  - intros jj c q1 q2 Hjj Hc O1 O2 _. assert (c = 1)%Z by lia. subst c. unfold angle. apply arc_ok.
    assert (jj = 2 \/ jj = 3 \/ jj = 4)%Z as [->|[->| ->]] by lia; unfold on_line in O1, O2; cbn in O1, O2.
    + subst. unfold at_, unit, dot, ex_f. cbn [fst snd]. replace (1 * (PI / 3) - PI / 2) with (- (PI / 6)) by field. replace (1 * (PI / 2)) with (PI / 2) by ring. replace (2 * (PI / 2)) with PI by field.
      rewrite cos_PI2, sin_PI2, cos_PI, sin_PI, sin_neg, sin_PI6. lra.
    + change (1 + 1)%Z with 2%Z in *. rewrite (ex_mid 1 q1), (ex_mid 2 q2) by auto. unfold dot. replace (1 * (PI / 2)) with (PI / 2) by ring. replace (2 * (PI / 2)) with PI by field.
      rewrite cos_PI2, sin_PI2, cos_PI, sin_PI. lra.
    + subst. unfold at_, unit, dot, ex_f. cbn [fst snd]. replace (2 * (PI / 3) - PI / 2) with (PI / 6) by field. replace (1 * (PI / 2)) with (PI / 2) by ring. replace (2 * (PI / 2)) with PI by field.
      rewrite cos_PI2, sin_PI2, cos_PI, sin_PI, sin_PI6. lra.
Qed.
