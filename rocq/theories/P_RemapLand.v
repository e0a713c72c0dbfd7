(** * Proofs about remap_land: the tile tables *)
From Coq Require Import Reals Lra.
From Verif Require Import Base Loops Vec Grid2 M_RemapLand Spec_Interp P_Interp Spec_RemapLand.
Open Scope Z_scope.

Definition zat (l : list Z) (i : Z) : Z := match zget l i with Some v => v | None => 0 end.
Lemma zat_get l i : 0 <= i < zlen l -> zget l i = Some (zat l i).
Proof. intros H. destruct (zget_in_range l i H) as (v & E). unfold zat. now rewrite E. Qed.
Lemma at_get l i : 0 <= i < zlen l -> zget l i = Some (at_ l i).
Proof. intros H. apply oget_Ok. now apply get_at. Qed.

Lemma filter_snoc {A} (f : A -> bool) l x : filter f (l ++ [x]) = filter f l ++ (if f x then [x] else []).
Proof. rewrite filter_app. reflexivity. Qed.

(** The cell computed by the code. *)
Lemma cell_eq nx ny g : 0 < nx -> 0 < ny -> 0 <= g -> Z.rem (Z.quot g nx) ny * nx + Z.rem g nx = g mod (nx * ny).
Proof.
  intros Hx Hy Hg. rewrite (Z.rem_mod_nonneg g nx) by lia. rewrite Z.quot_div_nonneg by lia.
  rewrite Z.rem_mod_nonneg by (try apply Z.div_pos; lia). rewrite Z.rem_mul_r by lia. ring.
Qed.

Section Info.
  Variables (nx ny ntile isc iec : Z) (tmp1 tmp2 idx : list Z) (frac : list R) (all : bool).
  Hypothesis Hx : 0 < nx.
  Hypothesis Hy : 0 < ny.
  Hypothesis Ht : 0 < ntile.
  Hypothesis Hi : 0 <= isc.
  Hypothesis He : isc <= iec + 1.
  Hypothesis L2 : zlen tmp2 = zlen tmp1.
  Hypothesis LI : zlen idx = zlen tmp1.
  Hypothesis LF : zlen frac = zlen tmp1.
  Hypothesis Hg : forall g, In g idx -> 0 <= g.
  Let N := nx * ny.
  Let nxc := iec - isc + 1.

  Definition upto (l c : Z) : list Z := filter (fun e => tagged tmp1 e && cell_is (nx * ny) idx e c) (zseq 0 l).
  Definition inwin (e : Z) : bool := tagged tmp1 e && match zget idx e with Some g => (isc <=? g mod (nx * ny)) && (g mod (nx * ny) <=? iec) | None => false end.
  Definition rank (l : Z) : Z := zlen (filter inwin (zseq 0 l)).
  Definition tile_at (e : Z) : tile := Tile (at_ frac e) (zat tmp1 e) (zat tmp2 e) (if all then e else rank e) (zat idx e / (nx * ny)).
  Hypothesis Hroom : forall c, isc <= c <= iec -> zlen (upto (zlen tmp1) c) <= ntile.

  Definition info_tiles (l k p : Z) : tile := match zget (upto l (isc + p)) k with Some e => tile_at e | None => no_tile end.
  Definition info_ok (l : Z) (st : list Z * list tile * Z) : Prop :=
    let '(count, tiles, pos) := st in
    vec count nxc (fun p => zlen (upto l (isc + p))) /\ fields tiles ntile nxc (info_tiles l) /\ pos = rank l.

  Lemma upto_mono l l' c : 0 <= l <= l' -> zlen (upto l c) <= zlen (upto l' c).
  Proof.
    intros H. unfold upto. replace l' with (l + (l' - l)) by lia. rewrite zseq_app by lia. rewrite filter_app, zlen_app.
    pose proof (zlen_nonneg (filter (fun e : Z => tagged tmp1 e && cell_is (nx * ny) idx e c) (zseq (0 + l) (l' - l)))). lia.
  Qed.

  Lemma upto_snoc l c : 0 <= l -> upto (l + 1) c = upto l c ++ (if tagged tmp1 l && cell_is (nx * ny) idx l c then [l] else []).
  Proof. intros H. unfold upto. rewrite zseq_snoc by lia. rewrite Z.add_0_l. exact (filter_snoc (fun e => tagged tmp1 e && cell_is (nx * ny) idx e c) (zseq 0 l) l). Qed.
  Lemma rank_snoc l : 0 <= l -> rank (l + 1) = rank l + (if inwin l then 1 else 0).
  Proof. intros H. unfold rank. rewrite zseq_snoc by lia. rewrite Z.add_0_l, filter_snoc, zlen_app. destruct (inwin l); reflexivity. Qed.

  Lemma info_same l st : 0 <= l -> inwin l = false -> info_ok l st -> info_ok (l + 1) st.
  Proof.
    intros Hl Hw. destruct st as ((count, tiles), pos). intros (H1 & H2 & H3).
    assert (forall p, 0 <= p < nxc -> upto (l + 1) (isc + p) = upto l (isc + p)) as E.
    { intros p Hp. rewrite upto_snoc by lia. unfold inwin in Hw. destruct (tagged tmp1 l); cbn [andb] in *; [|apply app_nil_r].
      unfold cell_is. destruct (zget idx l) as [g|]; [|apply app_nil_r].
      destruct (Z.eqb_spec (g mod (nx * ny)) (isc + p)); [|apply app_nil_r]. exfalso.
      unfold nxc in Hp. apply andb_false_iff in Hw. destruct Hw as [Hw | Hw]; apply Z.leb_gt in Hw; lia. }
    split; [|split].
    - eapply vec_ext; [|exact H1]. intros p Hp. cbn beta. now rewrite E.
    - eapply fields_ext; [|exact H2]. intros k p Hk Hp. unfold info_tiles. now rewrite E.
    - rewrite rank_snoc, Hw by lia. lia.
  Qed.

  Lemma tile_info_run : exists count tiles, get_land_tile_info nx ny ntile isc iec tmp1 tmp2 idx frac all = Ok (count, tiles) /\
    vec count nxc (fun p => zlen (upto (zlen tmp1) (isc + p))) /\ fields tiles ntile nxc (info_tiles (zlen tmp1)).
  Proof.
    unfold get_land_tile_info. fold nxc. pose proof (zlen_nonneg tmp1) as Hn. assert (0 <= nxc) as Hc by (unfold nxc; lia).
    match goal with |- context [ofor 0 (zlen tmp1) ?f ?s] => destruct (ofor_inv info_ok f 0 (zlen tmp1) s Hn) as (st & E & HI) end.
    - split; [|split].
      + apply vec_repeat; lia.
      + eapply fields_ext; [|apply fields_repeat; [lia|exact Hc|lia]]. intros k p Hk Hp. unfold info_tiles, upto. cbn. now rewrite zget_nil.
      + reflexivity.
    - intros l ((count, tiles), pos) Hl Hok. rewrite Z.add_0_l in Hl.
      assert (oget tmp1 l = Ok (zat tmp1 l)) as E1 by (apply oget_Ok, zat_get; lia).
      assert (zget idx l = Some (zat idx l)) as Ei by (apply zat_get; lia).
      rewrite E1. cbn [bind]. destruct (Z.eqb_spec (zat tmp1 l) FILL_INT) as [Ef|Ef].
      { eexists; split; [reflexivity|]. apply info_same; auto; [lia|]. unfold inwin, tagged. rewrite (zat_get tmp1) by lia.
        now rewrite Ef. }
      assert (tagged tmp1 l = true) as Etag.
      { unfold tagged. rewrite (zat_get tmp1) by lia. destruct (Z.eqb_spec (zat tmp1 l) missing_int); auto. }
      assert (0 <= zat idx l) as Hg0 by (apply Hg; eapply zget_In; eauto).
      rewrite (proj2 (oget_Ok idx l (zat idx l)) Ei). cbn [bind]. rewrite cell_eq by lia.
      set (c := zat idx l mod (nx * ny)) in *.
      assert (0 <= c < nx * ny) as Hcr by (apply Z.mod_pos_bound; nia).
      destruct ((c <? isc) || (iec <? c)) eqn:Ew.
      { eexists; split; [reflexivity|]. apply info_same; auto; [lia|]. unfold inwin. rewrite Etag, Ei. cbn [andb]. fold c.
        apply andb_false_iff. apply orb_true_iff in Ew. destruct Ew as [Ew | Ew]; apply Z.ltb_lt in Ew; [left|right]; apply Z.leb_gt; lia. }
      apply orb_false_iff in Ew. destruct Ew as [Ew1 Ew2]. apply Z.ltb_ge in Ew1, Ew2.
      assert (inwin l = true) as Ewin. { unfold inwin. rewrite Etag, Ei. fold c. cbn [andb]. apply andb_true_iff. split; apply Z.leb_le; lia. }
      destruct Hok as (H1 & H2 & H3). assert (0 <= c - isc < nxc) as Hp by (unfold nxc; lia).
      rewrite (vec_get _ _ _ _ H1) by lia. cbn beta. cbn [bind]. replace (isc + (c - isc)) with c by lia.
      assert (upto (l + 1) c = upto l c ++ [l]) as Eup.
      { rewrite upto_snoc by lia. rewrite Etag. unfold cell_is. rewrite Ei. fold c. now rewrite Z.eqb_refl. }
      assert (zlen (upto l c) + 1 <= ntile) as Hk.
      { transitivity (zlen (upto (l + 1) c)); [rewrite Eup, zlen_app; cbn; lia|]. transitivity (zlen (upto (zlen tmp1) c)); [apply upto_mono; lia|]. apply Hroom. lia. }
      destruct (Z.ltb_spec ntile (zlen (upto l c))); [lia|].
      rewrite (proj2 (oget_Ok frac l (at_ frac l))) by (apply at_get; lia). cbn [bind].
      rewrite (proj2 (oget_Ok tmp2 l (zat tmp2 l))) by (apply zat_get; lia). cbn [bind].
      rewrite Z.quot_div_nonneg by nia. rewrite (Z.mul_comm ntile).
      assert (forall p, 0 <= p < nxc -> p <> c - isc -> upto (l + 1) (isc + p) = upto l (isc + p)) as Eo.
      { intros p Hp' Hne. rewrite upto_snoc by lia. unfold cell_is. rewrite Ei. fold c. destruct (Z.eqb_spec c (isc + p)); [lia|]. rewrite andb_false_r. apply app_nil_r. }
      destruct (fields_set tiles ntile nxc (info_tiles l) (info_tiles (l + 1)) (zlen (upto l c)) (c - isc) (tile_at l) H2) as (tiles' & E2 & H2'); auto.
      { pose proof (zlen_nonneg (upto l c)). lia. }
      { intros x y Hx' Hy'. unfold info_tiles. destruct (Z.eqb_spec y (c - isc)) as [->|Hne].
        - replace (isc + (c - isc)) with c by lia. rewrite Eup. destruct (Z.eqb_spec x (zlen (upto l c))) as [->|Hne].
          + cbn [andb]. rewrite zget_app_r by lia. rewrite Z.sub_diag. reflexivity.
          + cbn [andb]. destruct (Z.lt_ge_cases x (zlen (upto l c))) as [Hlt|Hge].
            * now rewrite zget_app_l by lia.
            * rewrite zget_app_r by lia. rewrite zget_cons_pos, zget_nil by lia. destruct (zget (upto l c) x) eqn:Ez; auto.
              apply zget_Some_range in Ez. lia.
        - rewrite andb_false_r. now rewrite Eo. }
      assert (Tile (at_ frac l) (zat tmp1 l) (zat tmp2 l) (if all then l else pos) (zat idx l / (nx * ny)) = tile_at l) as -> by (unfold tile_at; rewrite <- H3; reflexivity).
      rewrite E2. cbn [bind].
      destruct (vec_set count nxc (fun p => zlen (upto l (isc + p))) (fun p => zlen (upto (l + 1) (isc + p))) (c - isc) (zlen (upto l c) + 1) H1) as (count' & E3 & H1'); auto.
      { intros p Hp'. destruct (Z.eqb_spec p (c - isc)) as [->|Hne].
        - replace (isc + (c - isc)) with c by lia. rewrite Eup, zlen_app. reflexivity.
        - now rewrite Eo. }
      rewrite E3. cbn [bind]. eexists; split; [reflexivity|]. split; [exact H1'|]. split; [exact H2'|].
      rewrite rank_snoc, Ewin, H3 by lia. lia.
    - rewrite E. cbn [bind]. rewrite Z.add_0_l in HI. destruct st as ((count, tiles), pos). destruct HI as (H1 & H2 & H3). eauto.
  Qed.
End Info.
