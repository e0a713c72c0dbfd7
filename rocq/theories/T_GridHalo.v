(** C88: with --out_halo 1 every tile is written with the values of its neighbours round it *)
From Coq Require Import ZArith List Bool Lia.
From Verif Require Import Base Loops M_GridHalo Spec_GridHalo P_GridHalo.
Import ListNotations.
Open Scope Z_scope.

(** The output of a quantity of tile [t]; [a]: its values on all tiles, [b]: for the sides of
    the cells the values of the sides in the other direction, otherwise [a] again. *)
Definition output {A} (missing : A) (q : quantity) (n t : Z) (a b tmp : list A) : outcome (list A) :=
  match q with
  | Corners => halo_points missing n t a tmp
  | XSides => halo_dx missing n t a b tmp
  | YSides => halo_dy missing n t b a tmp
  | Cells => halo_area missing n t a tmp
  end.

(** The sides beyond which the lengths are right. *)
Definition correct (q : quantity) (t : Z) (s : side) : Prop :=
  match q, s with
  | XSides, West => Z.odd t = true
  | YSides, West => Z.odd t = true
  | YSides, East => Z.odd t = false
  | _, _ => True
  end.

Lemma tile_value_rd {A} (missing : A) h w a t j i : 0 <= t < 6 -> 0 <= j < h -> 0 <= i < w -> 6 * (w * h) <= zlen a ->
  tile_value h w a t j i = Some (rd missing a (t * (w * h) + (j * w + i))).
Proof.
  intros Ht Hj Hi Ha. unfold tile_value.
  rewrite (proj2 (Z.leb_le 0 t)), (proj2 (Z.ltb_lt t 6)), (proj2 (Z.leb_le 0 j)), (proj2 (Z.ltb_lt j h)), (proj2 (Z.leb_le 0 i)), (proj2 (Z.ltb_lt i w)) by lia.
  cbn [andb]. pose proof (rowmajor_range h w j i Hj Hi) as B. rewrite (Z.mul_comm h w) in *. rewrite <- (Z.add_assoc _ (j * w)).
  apply zget_rd. pose proof (mul6 t (w * h) (j * w + i) Ht B). lia.
Qed.

(** In the middle the tile itself; beyond each side what lies beside that side in the
    neighbouring tile; missing values in the corners. *)
Theorem C88_halo_partial {A} (missing : A) q n t (a b tmp : list A) :
  let h := rows q n in let w := cols q n in
  2 <= n -> 0 <= t < 6 -> 6 * (h * w) <= zlen a -> 6 * (h * w) <= zlen b -> (h + 2) * (w + 2) <= zlen tmp ->
  exists out, output missing q n t a b tmp = Ok out /\ zlen out = zlen tmp
  /\ (forall j i, 0 <= j < h -> 0 <= i < w -> padded q n out j i = tile_value h w a t j i)
  /\ (forall s t' s' r k, neighbour t s t' s' r -> correct q t s -> 0 <= k < along q n s ->
      beyond q n out s k = beside (seen s s' q) n (match q with XSides | YSides => if turned s s' then b else a | _ => a end) t' s' (if r then along q n s - 1 - k else k))
  /\ padded q n out (-1) (-1) = Some missing /\ padded q n out (-1) w = Some missing
  /\ padded q n out h (-1) = Some missing /\ padded q n out h w = Some missing.
Proof.
  intros h w Hn Ht Ha Hb HL.
  set (ioff := cols q 0). set (joff := rows q 0).
  set (b' := match q with XSides | YSides => b | _ => a end).
  assert (Ew : w = n + ioff) by (unfold w, ioff; destruct q; cbn; lia).
  assert (Eh : h = n + joff) by (unfold h, joff; destruct q; cbn; lia).
  assert (Hio : 0 <= ioff <= 1) by (unfold ioff; destruct q; cbn; lia).
  assert (Hjo : 0 <= joff <= 1) by (unfold joff; destruct q; cbn; lia).
  assert (Ha' : 6 * ((n + ioff) * (n + joff)) <= zlen a) by (rewrite <- Ew, <- Eh, (Z.mul_comm w h); auto).
  assert (Hb' : 6 * ((n + ioff) * (n + joff)) <= zlen b') by (unfold b'; rewrite <- Ew, <- Eh, (Z.mul_comm w h); destruct q; auto).
  destruct (fill_run missing n ioff joff t a b' Hn Hio Hjo Ht Ha' Hb' tmp ltac:(rewrite <- Ew, <- Eh; auto)) as (out & E & EL & K).
  rewrite <- Ew, <- Eh in K. exists out.
  split. { rewrite <- E. destruct q; reflexivity. } split; [exact EL|].
  set (F := final missing n ioff joff t a b') in *.
  assert (P : forall j i, -1 <= j <= h -> -1 <= i <= w -> padded q n out j i = Some (F (j + 1) (i + 1))).
  { intros j i Kj Ki. unfold padded. fold w. apply K; lia. }
  split; [|split].
  - intros j i Kj Ki. rewrite P by lia. unfold F. rewrite F_in by (rewrite <- ?Ew, <- ?Eh; lia). rewrite <- Ew, <- Eh.
    rewrite (tile_value_rd missing) by (auto; rewrite (Z.mul_comm w h); auto). do 2 f_equal. f_equal. ring.
  - intros s t' s' r k N C Hk.
    assert (D : In (t, s, t', s', r) cube_edges \/ In (t', s', t, s, r) cube_edges) by exact N. clear N.
    cbn [In cube_edges] in D.
    assert (FW : 0 <= k < h -> padded q n out k (-1) = Some (if Z.rem t 2 =? 1 then rd missing a (Z.rem (t + 5) 6 * (w * h) + ((k + 1 - 1) * w + (n - 1))) else rd missing b' (Z.rem (t + 4) 6 * (w * h) + ((n - 1) * w + (h - (k + 1)))))).
    { intros B. rewrite P by lia. f_equal. unfold F. change (-1 + 1) with 0. rewrite F_w by (rewrite <- ?Ew, <- ?Eh; lia). now rewrite <- Ew, <- Eh. }
    assert (FE : 0 <= k < h -> padded q n out k w = Some (if Z.rem t 2 =? 1 then rd missing b' (Z.rem (t + 8) 6 * (w * h) + (ioff * w + (h - (k + 1)))) else rd missing a (Z.rem (t + 7) 6 * (w * h) + ((k + 1 - 1) * w + ioff)))).
    { intros B. rewrite P by lia. f_equal. unfold F. rewrite Ew. rewrite F_e by (rewrite <- ?Ew, <- ?Eh; lia). now rewrite <- Ew, <- Eh. }
    assert (FS : 0 <= k < w -> padded q n out (-1) k = Some (if Z.rem t 2 =? 1 then rd missing b' (Z.rem (t + 4) 6 * (w * h) + ((w - (k + 1)) * h + (n - 1))) else rd missing a (Z.rem (t + 5) 6 * (w * h) + ((n - 1) * w + (k + 1 - 1))))).
    { intros B. rewrite P by lia. f_equal. unfold F. change (-1 + 1) with 0. rewrite F_s by (rewrite <- ?Ew, <- ?Eh; lia). now rewrite <- Ew, <- Eh. }
    assert (FN : 0 <= k < w -> padded q n out h k = Some (if Z.rem t 2 =? 1 then rd missing a (Z.rem (t + 7) 6 * (w * h) + (joff * w + (k + 1 - 1))) else rd missing b' (Z.rem (t + 8) 6 * (w * h) + ((w - (k + 1)) * h + joff)))).
    { intros B. rewrite P by lia. f_equal. unfold F. rewrite Eh. rewrite F_n by (rewrite <- ?Ew, <- ?Eh; lia). now rewrite <- Ew, <- Eh. }
    clear E EL K P F HL Ha' Hb' Ew Eh Hio Hjo.
    destruct D as [D|D]; repeat (destruct D as [D|D]); try contradiction; injection D as <- <- <- <- <-; cbn in C;
      unfold beyond, beside, along, seen, turned, across, on_it in *; fold h; fold w; cbn [xorb] in *;
      first [rewrite FW by exact Hk | rewrite FE by exact Hk | rewrite FS by exact Hk | rewrite FN by exact Hk]; clear FW FE FS FN.
    all: match goal with |- context [Z.rem ?x 2 =? 1] => let v := eval compute in (Z.rem x 2 =? 1) in change (Z.rem x 2 =? 1) with v end; cbv iota;
      match goal with |- context [Z.rem ?x 6] => let v := eval compute in (Z.rem x 6) in change (Z.rem x 6) with v end;
      unfold h, w, ioff, joff, b' in *; destruct q; cbn [rows cols across] in *; cbn in C; try discriminate C;
      (rewrite (tile_value_rd missing); [do 2 f_equal; ring|lia..]).
  - repeat split; rewrite P by lia; f_equal; unfold F; apply F_corner; lia.
Qed.

(** Beyond the other sides the lengths are wrong, on grids of all sizes. *)
Lemma west_length {A} (missing : A) q n (a b tmp : list A) : q = XSides \/ q = YSides ->
  2 <= n -> 6 * (n * (n + 1)) <= zlen a -> 6 * (n * (n + 1)) <= zlen b -> (rows q n + 2) * (cols q n + 2) <= zlen tmp ->
  exists out, output missing q n 0 a b tmp = Ok out /\
    beyond q n out West 0 = zget b (4 * (n * (n + 1)) + ((n - 1) * cols q n + (rows q n - 1))).
Proof.
  intros Q Hn Ha Hb HL.
  edestruct (fill_run missing n (cols q 0) (rows q 0) 0 a b Hn) with (data := tmp) as (out & E & _ & K); try (destruct Q as [-> | ->]; cbn [rows cols] in *; lia).
  exists out. split; [destruct Q as [-> | ->]; exact E|].
  specialize (K 1 0). rewrite F_w in K by (destruct Q as [-> | ->]; cbn [rows cols]; lia). cbn [Z.rem Z.quotrem Z.eqb] in K.
  change (Z.rem (0 + 4) 6) with 4 in K. change (Z.rem 0 2 =? 1) with false in K. cbv iota in K.
  unfold beyond, padded. transitivity (zget out (1 * (n + cols q 0 + 2) + 0)); [f_equal; destruct Q as [-> | ->]; cbn [rows cols]; ring|].
  rewrite K by (destruct Q as [-> | ->]; cbn [rows cols]; lia). symmetry.
  replace ((n + cols q 0) * (n + rows q 0)) with (n * (n + 1)) by (destruct Q as [-> | ->]; cbn [rows cols]; ring).
  replace (n + cols q 0) with (cols q n) by (destruct Q as [-> | ->]; cbn [rows cols]; lia).
  replace (n + rows q 0) with (rows q n) by (destruct Q as [-> | ->]; cbn [rows cols]; lia).
  apply zget_rd. destruct Q as [-> | ->]; cbn [rows cols] in *; nia.
Qed.

Theorem C88_lengths_refuted q n : q = XSides \/ q = YSides -> 2 <= n ->
  exists a b tmp out : list Z, zlen a = 6 * (n * (n + 1)) /\ zlen b = 6 * (n * (n + 1)) /\ zlen tmp = (rows q n + 2) * (cols q n + 2)
  /\ output 0 q n 0 a b tmp = Ok out
  /\ neighbour 0 West 4 North true
  /\ beyond q n out West 0 <> beside (seen West North q) n b 4 North (along q n West - 1).
Proof.
  intros Q Hn. set (N := 6 * (n * (n + 1))). set (a := zseq 0 N). set (tmp := repeat 0 (Z.to_nat ((rows q n + 2) * (cols q n + 2)))).
  assert (La : zlen a = N) by (apply zlen_zseq; unfold N; nia).
  assert (Lt : zlen tmp = (rows q n + 2) * (cols q n + 2)). { unfold tmp. rewrite zlen_repeat, Z2Nat.id; auto. destruct Q as [-> | ->]; cbn [rows cols]; nia. }
  destruct (west_length 0 q n a a tmp Q Hn ltac:(lia) ltac:(lia) ltac:(lia)) as (out & E & B).
  exists a, a, tmp, out. repeat split; auto. { left. cbn. tauto. }
  rewrite B. unfold beside, seen, along, on_it, turned, across.
  assert (V : forall x, 0 <= x < N -> zget a x = Some x) by (intros x Hx; apply zget_zseq; auto).
  assert (M : 1 <= n * n) by nia. destruct Q as [-> | ->]; cbn [rows cols xorb].
  - rewrite (tile_value_rd 0); [|unfold N in *; lia..]. unfold rd. rewrite !V by (clear - Hn M; unfold N; lia). intros X. apply (f_equal (fun o => match o with Some v => v | None => 0 end)) in X. cbv beta iota in X. lia.
  - rewrite (tile_value_rd 0); [|unfold N in *; lia..]. unfold rd. rewrite !V by (clear - Hn M; unfold N; lia). intros X. apply (f_equal (fun o => match o with Some v => v | None => 0 end)) in X. cbv beta iota in X. lia.
Qed.

Theorem C88_lengths_east_refuted : exists a b tmp out : list Z,
  zlen a = 36 /\ zlen b = 36 /\ zlen tmp = 20 /\ output 0 YSides 2 1 a b tmp = Ok out
  /\ neighbour 1 East 3 South true
  /\ beyond YSides 2 out East 0 <> beside XSides 2 b 3 South 1.
Proof.
  exists (zseq 0 36), (zseq 0 36), (repeat 0 20).
  eexists. split; [reflexivity|]. split; [reflexivity|]. split; [reflexivity|]. split; [vm_compute; reflexivity|].
  split; [left; cbn; tauto|]. vm_compute. discriminate.
Qed.

(** A grid of 2 by 2 cells: the second tile with its halo. *)
Example C88_example : exists out, output 0 Corners 2 1 (zseq 0 54) (zseq 0 54) (repeat 0 25) = Ok out
  /\ out = [ 0; 52; 49; 46; 0;   1; 9; 10; 11; 32;   4; 12; 13; 14; 31;   7; 15; 16; 17; 30;   0; 21; 22; 23; 0 ].
Proof. eexists. split; vm_compute; reflexivity. Qed.
Example C88_example_partial : exists out, output 0 Corners 2 1 (zseq 0 54) (zseq 0 54) (repeat 0 25) = Ok out
  /\ beyond Corners 2 out East 0 = beside Corners 2 (zseq 0 54) 3 South 2.
Proof.
  destruct (C88_halo_partial 0 Corners 2 1 (zseq 0 54) (zseq 0 54) (repeat 0 25)) as (out & E & _ & _ & S & _); [lia|lia|vm_compute; discriminate..|].
  exists out. split; auto. apply (S East 3 South true 0); [left; cbn; tauto|exact I|cbn; lia].
Qed.
