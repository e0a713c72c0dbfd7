(** * Proofs about the combiner's tile placement *)
From Verif Require Import Base Loops Spec_Hyperslab Shape Spec_Combine P_Assemble M_Combine.

Lemma ofor_nest4 {S} nl nk nj ni (body : Z -> Z -> Z -> S -> Z -> outcome S) s :
  0 <= nl -> 0 <= nk -> 0 <= nj -> 0 <= ni ->
  ofor 0 nl (fun s l => ofor 0 nk (fun s k => ofor 0 nj (fun s j => ofor 0 ni (body l k j) s) s) s) s
  = ofor 0 (size [nl; nk; nj; ni]) (fun s n =>
      match unpos [nl; nk; nj; ni] n with [l; k; j; i] => body l k j s i | _ => UB end) s.
Proof.
  intros Hl Hk Hj Hi.
  transitivity (ofor 0 nl (fun s l => ofor 0 (nk * (nj * ni)) (fun s n =>
      body l (0 + n / (nj * ni)) (0 + n mod (nj * ni) / ni) s (0 + (n mod (nj * ni)) mod ni)) s) s).
  { apply ofor_ext. intros s' l _. now rewrite (ofor_nest3 0 nk 0 nj 0 ni (fun k j => body l k j)) by auto. }
  rewrite (ofor_nest2 0 nl 0 (nk * (nj * ni)) (fun l s n =>
      body l (0 + n / (nj * ni)) (0 + n mod (nj * ni) / ni) s (0 + (n mod (nj * ni)) mod ni))) by nia.
  unfold size. cbn [fold_right]. rewrite !Z.mul_1_r. apply ofor_ext. intros s' n _. cbn [unpos size fold_right].
  rewrite !Z.mul_1_r, Z.div_1_r. reflexivity.
Qed.

Section P.
  Context {A : Type} (fill : A).

  Definition nd_full (nd : list dimi) := map dm_full nd.
  Definition nd_start (nd : list dimi) := map (fun d => dm_start d - 1) nd.
  Definition nd_count (nd : list dimi) := map dm_size nd.
  Definition nd_tile (nd : list dimi) (vals : list A) : tile :=
    {| t_start := nd_start nd; t_count := nd_count nd; t_data := vals |}.
  Definition mkds (rec : option dimi) (nd : list dimi) : list (bool * dimi) :=
    (match rec with Some d => [(true, d)] | None => [] end) ++ map (pair false) nd.

  (** Scattered stores that follow the tile's row-major order paint the tile. *)
  Lemma stores_paint (full : list Z) (t : @tile A) (buf : list A) (idx : Z -> Z)
      (step : list A * Z -> Z -> outcome (list A * Z)) :
    tile_ok full t -> zlen buf = size full ->
    (forall n, 0 <= n < size (t_count t) -> idx n = pos full (vadd (t_start t) (unpos (t_count t) n))) ->
    (forall b n, 0 <= n < size (t_count t) ->
       step (b, n) n = (do b <- (do v <- oget (t_data t) n ; oset b (idx n) v) ; Ok (b, n + 1))) ->
    ofor 0 (size (t_count t)) step (buf, 0) = Ok (paint fill full t buf, size (t_count t)).
  Proof.
    intros HT HL HI HS. pose proof HT as [HB HD].
    pose proof (block_count_nonneg _ _ _ HB) as HC. pose proof (size_nonneg _ HC) as Hsz.
    assert (forall n, 0 <= n < size (t_count t) ->
       valid (t_count t) (unpos (t_count t) n) /\ pos (t_count t) (unpos (t_count t) n) = n) as U
      by (intros; now apply unpos_spec).
    assert (R : forall n, 0 <= n < size (t_count t) -> 0 <= idx n < zlen buf).
    { intros n Hn. rewrite HI, HL by auto. apply pos_range. eapply block_valid; eauto. now apply U. }
    destruct (ofor_place (size (t_count t)) step idx (fun n => oget (t_data t) n)
               (fun p => match local t (unpos full p) with
                         | Some l => dget fill (t_data t) (pos (t_count t) l) | None => fill end) buf Hsz)
      as (g & E & L & H1 & H2).
    { auto. }
    { intros n Hn. split; [|auto]. rewrite HI by auto. destruct (U n Hn) as [V Pn].
      assert (at_tile t (vadd (t_start t) (unpos (t_count t) n)) (unpos (t_count t) n)) as Ha by (split; auto).
      pose proof (at_tile_valid full t _ _ HT Ha) as Hg. rewrite unpos_pos by auto.
      rewrite (proj2 (local_at full t _ _ HT Hg) Ha). rewrite Pn. unfold dget, oget.
      destruct (zget_in_range (t_data t) n ltac:(lia)) as [x ->]. reflexivity. }
    rewrite E. do 2 f_equal. apply zget_ext.
    { rewrite paint_len; [lia|]. apply size_nonneg. eapply block_dims_nonneg; eauto. }
    intros p Hp. pose proof (block_dims_nonneg _ _ _ HB) as HF.
    destruct (unpos_spec full p HF ltac:(lia)) as [V P]. rewrite <- P.
    destruct (local t (unpos full p)) as [l|] eqn:El.
    - apply (local_at full t) in El; auto. rewrite (paint_in fill full t buf _ l HT El).
      destruct El as [Hv He]. pose proof (pos_range _ _ Hv) as Hr.
      pose proof (HI (pos (t_count t) l) Hr) as Hi. rewrite unpos_pos in Hi by auto. rewrite <- He in Hi.
      rewrite <- Hi. rewrite H1 by auto. rewrite Hi.
      pose proof (proj2 (local_at full t (unpos full p) l HT V) (conj Hv He)) as El.
      rewrite unpos_pos by auto. rewrite El. unfold dget.
      destruct (zget_in_range (t_data t) (pos (t_count t) l) ltac:(lia)) as [x ->]. reflexivity.
    - pose proof (proj1 (local_none full t _ HT V) El) as Hn. rewrite paint_out; auto.
      apply H2. intros n Hn2 Heq. apply Hn. exists (unpos (t_count t) n). destruct (U n Hn2) as [V2 _]. split; auto.
      rewrite HI in Heq by auto. apply (pos_inj full); auto. eapply block_valid; eauto.
  Qed.

  Lemma place_tile_paint (rec : option dimi) (nd : list dimi) (r : Z) (vals buf : list A) :
    (1 <= length nd <= 4)%nat -> tile_ok (nd_full nd) (nd_tile nd vals) -> zlen buf = size (nd_full nd) ->
    place_tile (mkds rec nd) r vals buf = Ok (paint fill (nd_full nd) (nd_tile nd vals) buf).
  Proof.
    intros Hn HT HL. pose proof HT as [HB HD]. pose proof (block_count_nonneg _ _ _ HB) as HC.
    assert (K : exists lm km jm im lo ko jo io IF IJ IJK,
       place_tile (mkds rec nd) r vals buf =
         (do '(b, _) <- ofor 0 lm (fun st l => ofor 0 km (fun st k => ofor 0 jm (fun st j => ofor 0 im (fun '(buf, b) i =>
            do x <- oget vals b ;
            do buf <- oset buf ((i + io) + (j + jo) * IF + (k + ko) * IJ + (l + lo) * IJK) x ;
            Ok (buf, b + 1)) st) st) st) (buf, 0) ; Ok b)
       /\ 0 <= lm /\ 0 <= km /\ 0 <= jm /\ 0 <= im
       /\ size (nd_count nd) = size [lm; km; jm; im]
       /\ forall n, 0 <= n < size (nd_count nd) ->
            match unpos [lm; km; jm; im] n with
            | [l; k; j; i] => (i + io) + (j + jo) * IF + (k + ko) * IJ + (l + lo) * IJK
                              = pos (nd_full nd) (vadd (nd_start nd) (unpos (nd_count nd) n))
            | _ => False
            end).
    { destruct nd as [|[c1 F1 s1 e1] [|[c2 F2 s2 e2] [|[c3 F3 s3 e3] [|[c4 F4 s4 e4] [|]]]]]; cbn [length] in Hn; try lia; clear Hn;
      cbn [nd_tile t_count nd_count map dm_size] in HC;
      repeat match goal with H : Forall _ (_ :: _) |- _ => inversion H; clear H; subst end; cbv beta in *;
      (destruct rec as [[rc rF rs re]|]; unfold place_tile, v_outstart, mkds, v_hasrec, nd_count, nd_start, nd_full;
       cbn [app map fst snd dm_size dm_full dm_start existsb orb];
       repeat match goal with |- context [?x - 1] => is_var x; let o := fresh "o" in set (o := x - 1); clearbody o end;
       do 11 eexists;
       (split; [unfold zlen; cbn -[ofor oset Z.mul Z.add]; ogets; cbn [fst snd dm_size dm_full]; reflexivity|]);
       cbn [fst snd];
       (do 4 (split; [lia|])); (split; [cbn [size fold_right]; ring|]);
       intros n Hn2; rewrite ?unpos_one by (repeat constructor; cbn [size fold_right] in *; lia);
       cbn [unpos size fold_right vadd]; unfold pos; cbn [rowmajor];
       change (0 + 1) with 1; change (1 + 1) with 2; change (2 + 1) with 3; change (3 + 1) with 4; cbn [Pos.eqb]; ring). }
    destruct K as (lm & km & jm & im & lo & ko & jo & io & IF & IJ & IJK & -> & Hl & Hk & Hj & Hi & Hsz & Hpos).
    rewrite (ofor_nest4 lm km jm im (fun l k j '(buf, b) i =>
            do x <- oget vals b ;
            do buf <- oset buf ((i + io) + (j + jo) * IF + (k + ko) * IJ + (l + lo) * IJK) x ;
            Ok (buf, b + 1))) by auto.
    rewrite <- Hsz.
    change (nd_count nd) with (t_count (nd_tile nd vals)).
    match goal with |- context [ofor 0 (size (t_count (nd_tile nd vals))) ?f (buf, 0)] =>
      rewrite (stores_paint (nd_full nd) (nd_tile nd vals) buf (fun n => pos (nd_full nd) (vadd (nd_start nd) (unpos (nd_count nd) n))) f) end; auto.
    intros b n Hn2. specialize (Hpos n Hn2).
    destruct (unpos [lm; km; jm; im] n) as [|l [|k [|j [|i [|]]]]]; try contradiction.
    rewrite Hpos. cbn [t_data nd_tile]. destruct (oget vals n); cbn [bind]; auto.
  Qed.
End P.
