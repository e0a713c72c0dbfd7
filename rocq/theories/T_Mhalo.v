(** * C64: halo exchange between the tiles of a mosaic in fregrid *)
From Coq Require Import Reals Lra Lia.
From Verif Require Import Base Loops Vec Spec_Interp P_Interp M_Mhalo Spec_Mhalo P_Mhalo P_Mhalo2.
Local Open Scope Z_scope.

(** [X]: the contacts of the mosaic, each end with the side of the tile on which it lies.  [sh] = 0: fields at the cell
    centres, [sh] = 1: at the cell corners.  Every halo point next to an end gets the value of the point of the
    other tile at the same place of the contact, as it was before the exchange; nothing else changes. *)
Theorem C64_exchange_partial : forall sh nz G X D, sh = 0 \/ sh = 1 -> 0 <= nz -> fits sh nz G D ->
  (forall c, In c X -> glued G (fst c) (snd c) /\ handled (fst (fst c)) (fst (snd c)) /\ same_depth G (fst c) (snd c) /\ same_depth G (snd c) (fst c)) ->
  (forall l l', 0 <= l < zlen X + zlen X -> 0 <= l' < zlen X + zlen X -> l <> l' ->
     apart sh G (nth (Z.to_nat l) (map fst X ++ map snd X) (WEST, MkEnd 0 0 0 0 0)) (nth (Z.to_nat l') (map fst X ++ map snd X) (WEST, MkEnd 0 0 0 0 0))) ->
  exists D', exchange G sh nz (map (fun c => (snd (fst c), snd (snd c))) X) D = Ok D' /\ fits sh nz G D'
  /\ (forall x y k s, In (x, y) X \/ In (y, x) X -> 0 <= k < nz -> 0 <= s < points sh (snd x) ->
        let n := e_tile (snd x) in let n2 := e_tile (snd y) in
        val sh (fst (size_of G n)) (snd (size_of G n)) (field_of D' n) k (halo_point sh G x s)
        = val sh (fst (size_of G n2)) (snd (size_of G n2)) (field_of D n2) k (inner_point sh G y s))
  /\ (forall n k p, 0 <= n < zlen G -> 0 <= k < nz -> -1 <= fst p <= fst (size_of G n) + sh -> -1 <= snd p <= snd (size_of G n) + sh ->
        (forall x s, In x (map fst X ++ map snd X) -> e_tile (snd x) = n -> 0 <= s < points sh (snd x) -> halo_point sh G x s <> p) ->
        val sh (fst (size_of G n)) (snd (size_of G n)) (field_of D' n) k p = val sh (fst (size_of G n)) (snd (size_of G n)) (field_of D n) k p).
Proof.
  intros sh nz G X D Hsh Hnz FIT HX AP.
  assert (BL : zlen (both X) = 2 * zlen X) by (unfold both; rewrite zlen_app; unfold zlen; rewrite !map_length; lia).
  destruct (exchange_run sh nz G X D Hsh FIT HX) as (D' & E & (F & K) & O).
  { intros l l' Hl Hl'. rewrite BL in Hl, Hl'. apply AP; lia. }
  exists D'. split; [exact E|]. split; [exact F|]. split.
  - intros x y k s Hin Hk Hs.
    assert (L : exists l, 0 <= l < 2 * zlen X /\ nth_end X l = x /\ nth_end X (Z.rem (l + zlen X) (2 * zlen X)) = y).
    { assert (Q : forall c, In c X -> exists i, 0 <= i < zlen X /\ nth (Z.to_nat i) X (no_end, no_end) = c).
      { intros c Hc. destruct (In_nth X c (no_end, no_end) Hc) as (i & Hi & Ei). exists (Z.of_nat i). unfold zlen. rewrite Nat2Z.id. split; [lia|auto]. }
      destruct Hin as [Hin|Hin]; destruct (Q _ Hin) as (i & Hi & Ei).
      - exists i. split; [lia|]. rewrite Z.rem_small by lia. unfold nth_end, both, zlen in *. split.
        + rewrite app_nth1 by (rewrite map_length; lia). change no_end with (fst (no_end, no_end)). rewrite map_nth, Ei. reflexivity.
        + rewrite app_nth2 by (rewrite map_length; lia). rewrite map_length. replace (Z.to_nat (i + Z.of_nat (length X)) - length X)%nat with (Z.to_nat i) by lia. change no_end with (snd (no_end, no_end)). rewrite map_nth, Ei. reflexivity.
      - exists (i + zlen X). split; [lia|]. rewrite Z.rem_mod_nonneg by lia. replace (i + zlen X + zlen X) with (i + 1 * (2 * zlen X)) by lia. rewrite Z.mod_add, Z.mod_small by lia. unfold nth_end, both, zlen in *. split.
        + rewrite app_nth2 by (rewrite map_length; lia). rewrite map_length. replace (Z.to_nat (i + Z.of_nat (length X)) - length X)%nat with (Z.to_nat i) by lia. change no_end with (snd (no_end, no_end)). rewrite map_nth, Ei. reflexivity.
        + rewrite app_nth1 by (rewrite map_length; lia). change no_end with (fst (no_end, no_end)). rewrite map_nth, Ei. reflexivity. }
    destruct L as (l & Hl & <- & <-). apply (O l Hl); auto.
  - intros n k p Hn Hk P1 P2 NP. apply K; auto. intros l s Hl Hln Hs. apply NP; auto. unfold nth_end. change (map fst X ++ map snd X) with (both X). apply nth_In. unfold zlen in *. lia.
Qed.

(** Two tiles of 2 by 2 cells; the second holds the numbers 0 to 15 in its array with halo. *)
Definition two : list (Z * Z) := [(2, 2); (2, 2)].
Definition zeros : list R := repeat 0%R 16.
Definition numbers : list R := [0; 1; 2; 3; 4; 5; 6; 7; 8; 9; 10; 11; 12; 13; 14; 15]%R.
Lemma two_fits : fits 0 1 two [zeros; numbers].
Proof. split; [reflexivity|]. change (zlen two) with 2. intros n Hn. assert (n = 0 \/ n = 1) as [-> | ->] by lia; (split; [vm_compute; discriminate|split; [vm_compute; discriminate|reflexivity]]). Qed.

(** Equal sides: west with west, east with east, south with south, as neighbouring pieces of one surface.  The values
    arrive in reverse order. *)
Theorem C64_same_side_refuted : forall d, d = WEST \/ d = EAST \/ d = SOUTH ->
  exists e e2 D', glued two (d, e) (d, e2) /\ e_tile e = 0 /\ e_tile e2 = 1
  /\ exchange two 0 1 [(e, e2)] [zeros; numbers] = Ok D'
  /\ val 0 2 2 (field_of D' 0) 0 (halo_point 0 two (d, e) 0) <> val 0 2 2 numbers 0 (inner_point 0 two (d, e2) 0).
Proof.
  intros d [-> |[-> | ->]].
  - exists (MkEnd 0 0 0 0 1), (MkEnd 1 0 0 1 0). eexists. split; [cbv -[Z.le Z.lt]; repeat split; lia|]. split; [reflexivity|]. split; [reflexivity|]. split; [cbv -[IZR]; reflexivity|]. cbv -[IZR]. lra.
  - exists (MkEnd 0 1 1 0 1), (MkEnd 1 1 1 1 0). eexists. split; [cbv -[Z.le Z.lt]; repeat split; lia|]. split; [reflexivity|]. split; [reflexivity|]. split; [cbv -[IZR]; reflexivity|]. cbv -[IZR]. lra.
  - exists (MkEnd 0 0 1 0 0), (MkEnd 1 1 0 0 0). eexists. split; [cbv -[Z.le Z.lt]; repeat split; lia|]. split; [reflexivity|]. split; [reflexivity|]. split; [cbv -[IZR]; reflexivity|]. cbv -[IZR]. lra.
Qed.
(** A tile two cells wide whose west side meets the east side of a tile three cells wide: the column before the last
    arrives. *)
Theorem C64_size_refuted : exists e e2 D', let G := [(2, 2); (3, 2)] in let f := [0; 1; 2; 3; 4; 5; 6; 7; 8; 9; 10; 11; 12; 13; 14; 15; 16; 17; 18; 19]%R in
  glued G (WEST, e) (EAST, e2) /\ handled WEST EAST /\ fits 0 1 G [zeros; f]
  /\ exchange G 0 1 [(e, e2)] [zeros; f] = Ok D'
  /\ val 0 2 2 (field_of D' 0) 0 (halo_point 0 G (WEST, e) 0) <> val 0 3 2 f 0 (inner_point 0 G (EAST, e2) 0).
Proof.
  exists (MkEnd 0 0 0 0 1), (MkEnd 1 2 2 0 1). eexists. cbv zeta. split; [cbv -[Z.le Z.lt]; repeat split; lia|]. split; [exact I|]. split.
  - split; [reflexivity|]. change (zlen [(2, 2); (3, 2)]) with 2. intros n Hn. assert (n = 0 \/ n = 1) as [-> | ->] by lia; (split; [vm_compute; discriminate|split; [vm_compute; discriminate|reflexivity]]).
  - split; [cbv -[IZR]; reflexivity|]. cbv -[IZR]. lra.
Qed.

(** The hypotheses can be met: the north side of the first tile meets the west side of the second. *)
Example C64_example : exists e e2 D', let X := [((NORTH, e), (WEST, e2))] in
  (forall c, In c X -> glued two (fst c) (snd c) /\ handled (fst (fst c)) (fst (snd c)) /\ same_depth two (fst c) (snd c) /\ same_depth two (snd c) (fst c))
  /\ (forall l l', 0 <= l < zlen X + zlen X -> 0 <= l' < zlen X + zlen X -> l <> l' ->
     apart 0 two (nth (Z.to_nat l) (map fst X ++ map snd X) (WEST, MkEnd 0 0 0 0 0)) (nth (Z.to_nat l') (map fst X ++ map snd X) (WEST, MkEnd 0 0 0 0 0)))
  /\ exchange two 0 1 [(e, e2)] [zeros; numbers] = Ok D'
  /\ val 0 2 2 (field_of D' 0) 0 (0, 2) = 9%R /\ val 0 2 2 (field_of D' 0) 0 (1, 2) = 5%R.
Proof.
  exists (MkEnd 0 0 1 1 1), (MkEnd 1 0 0 1 0). eexists. cbv zeta. split.
  - intros c [<-|[]]. cbn [fst snd]. split; [cbv -[Z.le Z.lt]; repeat split; lia|]. repeat split.
  - split.
    + intros l l' Hl Hl' N. cbn in Hl, Hl'. assert (H : (l = 0 /\ l' = 1) \/ (l = 1 /\ l' = 0)) by lia. destruct H as [(-> & ->)|(-> & ->)]; intros E; discriminate E.
    + split; [cbv -[IZR]; reflexivity|]. split; cbv -[IZR]; reflexivity.
Qed.

Print Assumptions C64_exchange_partial.
Print Assumptions C64_same_side_refuted.
Print Assumptions C64_size_refuted.
