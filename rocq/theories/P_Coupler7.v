(** * Proofs about make_coupler_mosaic: areas and pairs as written *)
From Coq Require Import Reals Lra.
From Verif Require Import Base Loops Vec P_Interp P_Interp2 P_RemapLand4 P_Coupler P_Coupler3 P_Coupler4 P_Coupler6 M_Interp Spec_Interp M_Coupler Spec_Coupler.
Open Scope Z_scope.

Lemma idx_pair n i j i' j' : 0 <= i < n -> 0 <= i' < n -> (j * n + i =? j' * n + i') = (i =? i') && (j =? j').
Proof.
  intros H H'. destruct (Z.eqb_spec i i') as [->|N]; cbn [andb].
  - destruct (Z.eqb_spec j j') as [->|M]; [apply Z.eqb_refl|]. apply Z.eqb_neq. nia.
  - apply Z.eqb_neq. intros E. apply N. assert (j = j') by nia. nia.
Qed.
Lemma rsum_concat {A} (f : A -> R) ls : rsum f (concat ls) = rsum (rsum f) ls.
Proof. induction ls as [|l ls IH]; auto. cbn [concat]. now rewrite rsum_app, rsum_cons, IH. Qed.

Section Areas.
  Variables (o : options) (g : geometry) (atm lnd ocn : list tile) (omask : list (list R)).
  Local Notation land := (land_exchange o g atm lnd ocn omask).
  Local Notation ocean := (ocean_exchange o g atm ocn omask).
  Local Notation lcell := (land_cell o g atm lnd ocn omask).
  Local Notation ocell := (ocean_cell o g atm ocn omask).
  Lemma land_in na nl c : In c (land na nl) -> In (c_ia c, c_ja c) (cells (tile_at atm na)) /\ In (c_ib c, c_jb c) (cells (tile_at lnd nl)).
  Proof.
    intros H. unfold land_exchange in H. apply in_flat_map in H. destruct H as ((i, j) & Ha & H). apply in_flat_map in H. destruct H as ((k, l) & Hb & H).
    apply lcell_in in H. destruct H as (-> & -> & -> & ->). auto.
  Qed.
  Lemma ocean_in na no c : In c (ocean na no) -> In (c_ia c, c_ja c) (cells (tile_at atm na)) /\ In (c_ib c, c_jb c) (cells (tile_at ocn no)).
  Proof.
    intros H. unfold ocean_exchange in H. destruct (facing o na no); [|easy]. apply in_flat_map in H. destruct H as ((i, j) & Ha & H). apply in_flat_map in H. destruct H as ((k, l) & Hb & H).
    apply ocell_in in H. destruct H as (-> & -> & -> & -> & _). auto.
  Qed.
  (** The sums of the program *)
  Lemma share_atm na ca : proper (tile_at atm na) -> In ca (cells (tile_at atm na)) ->
    share_a ca (concat (map (land na) (zseq 0 (zlen lnd)) ++ map (ocean na) (zseq 0 (zlen ocn)))) = (lsum o g atm lnd ocn omask na ca + osum o g atm ocn omask na ca)%R.
  Proof.
    intros Hp Hca. destruct (atm_sum_run o g atm lnd ocn omask na Hp) as (s & E & L & H). rewrite <- (H ca Hca).
    pose proof Hp as (Hx & Hy & _). set (t := tile_at atm na) in *. pose proof (proj1 (In_cells t (fst ca) (snd ca)) ltac:(now rewrite <- surjective_pairing)) as Hr.
    unfold atm_sum in E.
    destruct (sums_into (fun c => c_ja c * t_nx t + c_ia c) (map (land na) (zseq 0 (zlen lnd)) ++ map (ocean na) (zseq 0 (zlen ocn))) _ _ _ (vec_repeat 0%R (t_nx t * t_ny t) ltac:(nia))) as (s' & E' & V).
    - intros l c Hl Hc. assert (In (c_ia c, c_ja c) (cells t)) as Hi.
      { apply in_app_or in Hl. destruct Hl as [Hl|Hl]; apply in_map_iff in Hl; destruct Hl as (n & <- & Hn); [apply (land_in _ _ _ Hc)|apply (ocean_in _ _ _ Hc)]. }
      apply In_cells in Hi. nia.
    - assert (s' = s) as -> by (enough (Ok s' = Ok s) by congruence; rewrite <- E, <- E'; reflexivity).
      unfold val. pose proof (vec_get _ _ _ (snd ca * t_nx t + fst ca) V ltac:(nia)) as Eg. rewrite oget_at in Eg by (destruct V as (L' & _); rewrite L'; nia). injection Eg as ->.
      rewrite Rplus_0_l. unfold share_a. rewrite rsum_concat. apply rsum_ext. intros l Hl. apply rsum_ext. intros c Hc. 
      assert (In (c_ia c, c_ja c) (cells t)) as Hi.
      { apply in_app_or in Hl. destruct Hl as [Hl|Hl]; apply in_map_iff in Hl; destruct Hl as (n & <- & Hn); [apply (land_in _ _ _ Hc)|apply (ocean_in _ _ _ Hc)]. }
      apply In_cells in Hi. now rewrite idx_pair by lia.
  Qed.
  Lemma share_ocn nest no co : proper (tile_at ocn no) -> 0 <= no < zlen ocn -> In co (cells (tile_at ocn no)) ->
    rsum (fun na => if na =? nest then 0%R else share_b co (ocean na no)) (zseq 0 (zlen atm)) = asum o g atm ocn omask nest no co.
  Proof.
    intros Hp Hno Hco. pose proof Hp as (Hx & Hy & _). unfold asum, air_cells. rewrite rsum_flat. apply rsum_ext. intros na _. destruct (na =? nest); [reflexivity|].
    set (t := tile_at ocn no) in *. pose proof (proj1 (In_cells t (fst co) (snd co)) ltac:(now rewrite <- surjective_pairing)) as Hr.
    unfold share_b. rewrite (rsum_ext _ (fun c => if c_jb c * t_nx t + c_ib c =? snd co * t_nx t + fst co then c_area c else 0%R)).
    - unfold ocean_exchange. rewrite rsum_if. destruct (facing o na no); [|reflexivity].
      rewrite (pick_side ocn no Hp _ (fun ca => ocell na ca no)); auto.
      + now rewrite rsum_map.
      + intros ca co' c Hc. apply ocell_in in Hc. tauto.
    - intros c Hc. apply ocean_in in Hc. destruct Hc as (_ & Hc). apply In_cells in Hc. fold t in Hc. now rewrite idx_pair by lia.
  Qed.
End Areas.

(** ** Every pair of cells at most once *)
Lemma NoDup_flat {A B C} (k : B -> C) (h : C -> A) (f : A -> list B) l : NoDup l -> (forall x, In x l -> NoDup (map k (f x))) ->
  (forall x y, In x l -> In y (f x) -> h (k y) = x) -> NoDup (map k (flat_map f l)).
Proof.
  induction l as [|x l IH]; intros H1 H2 H3; [constructor|]. cbn [flat_map]. rewrite map_app. inversion H1 as [|x' l' Nx Nl]; subst x' l'.
  assert (NoDup (map k (flat_map f l))) as N2 by (apply IH; auto; [intros; apply H2; now right|intros; apply H3; auto; now right]).
  assert (NoDup (map k (f x))) as N1 by (apply H2; now left).
  assert (forall c, In c (map k (f x)) -> ~ In c (map k (flat_map f l))) as D.
  { intros c Hc Hd. apply in_map_iff in Hc, Hd. destruct Hc as (y & <- & Hy), Hd as (z & Ez & Hz). apply in_flat_map in Hz. destruct Hz as (x' & Hx' & Hz).
    pose proof (H3 x y (or_introl eq_refl) Hy) as E1. pose proof (H3 x' z (or_intror Hx') Hz) as E2. rewrite Ez in E2. congruence. }
  clear -N1 N2 D. induction (map k (f x)) as [|c m IHm]; auto. inversion N1; subst. cbn [app]. constructor.
  - rewrite in_app_iff. intros [H|H]; [contradiction|]. apply (D c); auto. now left.
  - apply IHm; auto. intros c' Hc'. apply D. now right.
Qed.
Lemma NoDup_zseq n : forall lo, NoDup (zseq lo n).
Proof.
  destruct (Z_le_gt_dec n 0) as [L|L]; [intros; rewrite zseq_nonpos by lia; constructor|]. pattern n. apply natlike_ind; try lia; [intros lo; constructor|]. intros m Hm IH lo.
  unfold Z.succ. rewrite Z.add_comm, zseq_S by lia. constructor.
  - rewrite In_zseq. lia.
  - replace (1 + m - 1) with m by lia. apply IH.
Qed.
Lemma NoDup_cells t : NoDup (cells t).
Proof.
  unfold cells. rewrite <- (map_id (flat_map _ _)). apply (NoDup_flat (fun c => c) snd).
  - apply NoDup_zseq.
  - intros j _. rewrite map_id. pose proof (NoDup_zseq (t_nx t) 0) as N. induction N as [|i l Hi N IH]; cbn [map]; constructor; auto.
    intros H. apply in_map_iff in H. destruct H as (i' & E & Hi'). injection E as ->. contradiction.
  - intros j c _ Hc. apply in_map_iff in Hc. destruct Hc as (i & <- & _). reflexivity.
Qed.
Lemma NoDup_short {A} (l : list A) : zlen l <= 1 -> NoDup l.
Proof. destruct l as [|x [|y l]]; intros H; [constructor|constructor; [easy|constructor]|]. rewrite !zlen_cons in H. pose proof (zlen_nonneg l). lia. Qed.
Lemma NoDup_pairs (f : Z * Z -> Z * Z -> list xcell) la lb : NoDup la -> NoDup lb -> (forall a b, zlen (f a b) <= 1) ->
  (forall a b c, In c (f a b) -> pair_of c = (a, b)) -> NoDup (map pair_of (flat_map (fun a => flat_map (f a) lb) la)).
Proof.
  intros Na Nb Hf Hp. apply (NoDup_flat pair_of fst); auto.
  - intros a _. apply (NoDup_flat pair_of snd); auto.
    + intros b _. apply NoDup_short. rewrite zlen_map. apply Hf.
    + intros b c _ Hc. now rewrite (Hp a b c Hc).
  - intros a c _ Hc. apply in_flat_map in Hc. destruct Hc as (b & _ & Hc). now rewrite (Hp a b c Hc).
Qed.
