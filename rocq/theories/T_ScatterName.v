(** * Property C16: names of the scattered files *)
From Coq Require Import String.
Open Scope list_scope.
From Verif Require Import Base Loops Lst Str M_ScatterName.

(** The directory part given by -p. *)
Definition dir_of (prefix : option str) : str :=
  match prefix with Some (c :: p) => (c :: p) ++ chars "/" | _ => [] end.
(** The file name without its directories: what follows the last slash. *)
Definition is_base (file base : str) : Prop :=
  ~ In 47 base /\ (file = base \/ exists dir, file = dir ++ 47 :: base).
(** The name of file number [a]. *)
Definition name_of (prefix : option str) (base : str) (width a : Z) : str :=
  dir_of prefix ++ base ++ chars "." ++ print_int width a.

Definition fits (prefix : option str) (base : str) (width start n : Z) : Prop :=
  zlen (dir_of prefix) + zlen (print_int 0 width) <= 249
  /\ forall i, 0 <= i < n -> zlen (name_of prefix base width (start + i)) <= 255.
Definition no_percent (prefix : option str) : Prop := forall p, prefix = Some p -> ~ In 37 p.

Lemma strip_path_spec s : forall best, exists base, strip_path best s = base /\
  ((~ In 47 s /\ base = best) \/ (~ In 47 base /\ exists dir, s = dir ++ 47 :: base)).
Proof.
  induction s as [|c s IH]; intros best; cbn [strip_path].
  - exists best. split; auto.
  - destruct (Z.eqb_spec c 47) as [->|Hc].
    + destruct (IH s) as (b & Eb & [[H1 ->]|[H1 (d & H2)]]).
      * exists s. split; auto. right. split; auto. exists []. reflexivity.
      * exists b. split; auto. right. split; auto. exists (47 :: d). now rewrite H2 at 1.
    + destruct (IH best) as (b & Eb & [[H1 ->]|[H1 (d & H2)]]).
      * exists best. split; auto. left. split; auto. intros [?|?]; auto.
      * exists b. split; auto. right. split; auto. exists (c :: d). now rewrite H2 at 1.
Qed.
Lemma strip_is_base file : is_base file (strip_path file file).
Proof.
  destruct (strip_path_spec file file) as (b & -> & [[H1 ->]|[H1 H2]]); split; auto.
Qed.
Lemma is_base_unique file b1 b2 : is_base file b1 -> is_base file b2 -> b1 = b2.
Proof.
  assert (K : forall (d1 : str) d2 b1 b2, ~ In 47 b1 -> ~ In 47 b2 -> d1 ++ 47 :: b1 = d2 ++ 47 :: b2 -> b1 = b2).
  { induction d1 as [|c d1 IH]; intros [|c' d2] x y H1 H2 E; cbn in E; inversion E; subst; auto.
    - exfalso. apply H1. apply in_app_iff. right. left. auto.
    - exfalso. apply H2. apply in_app_iff. right. left. auto.
    - eapply IH; eauto. }
  intros [N1 [E1|(d1 & E1)]] [N2 [E2|(d2 & E2)]]; subst.
  - auto.
  - exfalso. apply N1. apply in_app_iff. right. left. auto.
  - exfalso. apply N2. apply in_app_iff. right. left. auto.
  - eapply K; eauto.
Qed.

(** ** The interpreter on the formats *)
Lemma spr_lit p : forall fmt args, ~ In 37 p -> spr PLit (p ++ fmt) args = do r <- spr PLit fmt args ; Ok (p ++ r).
Proof.
  induction p as [|c p IH]; intros fmt args H; cbn [app].
  - symmetry. apply bind_ret. auto.
  - cbn [spr]. destruct (Z.eqb_spec c 37) as [->|]; [exfalso; apply H; left; auto|]. rewrite IH by (intros X; apply H; right; auto).
    destruct (spr PLit fmt args); reflexivity.
Qed.
Lemma digit_not c k : is_digit c = true -> is_digit k = false -> c =? k = false.
Proof. intros H1 H2. destruct (Z.eqb_spec c k); congruence. Qed.
Lemma spr_digits ds : forall z w fmt args, Forall (fun c => is_digit c = true) ds ->
  spr (PWid z w) (ds ++ fmt) args = spr (PWid z (fold_left (fun a c => 10 * a + (c - 48)) ds w)) fmt args.
Proof.
  induction ds as [|c ds IH]; intros z w fmt args H; auto. inversion H as [|? ? Hc Hd]; subst. cbn [app spr fold_left].
  rewrite !(digit_not c), Hc by auto. auto.
Qed.

Lemma format_ok prefix width : 0 <= width -> zlen (dir_of prefix) + zlen (print_int 0 width) <= 249 ->
  outnameformat prefix width = Ok (dir_of prefix ++ chars "%s.%0" ++ print_int 0 width ++ chars "d").
Proof.
  intros Hw Hl. unfold outnameformat, sprintf.
  set (p := match prefix with Some p => p | None => [] end).
  assert (E : forall a b : str, spr PLit (chars "%s%s%%s.%%0%dd") [AStr a; AStr b; AInt width] = Ok (a ++ b ++ chars "%s.%0" ++ print_int 0 width ++ chars "d")).
  { intros a b. cbv -[print_int app]. reflexivity. }
  assert (Ed : spr PLit (chars "%s%s%%s.%%0%dd") [AStr (if zlen p >? 0 then p else []); AStr (if zlen p >? 0 then chars "/" else []); AInt width]
      = Ok (dir_of prefix ++ chars "%s.%0" ++ print_int 0 width ++ chars "d")).
  { rewrite E. rewrite app_assoc. f_equal. f_equal. subst p. destruct prefix as [[|c p]|]; cbn [dir_of]; [reflexivity| |reflexivity]. rewrite zlen_cons. pose proof (zlen_nonneg p).
    destruct (Z.gtb_spec (1 + zlen p) 0); [reflexivity|lia]. }
  rewrite Ed. cbn [bind]. rewrite !zlen_app. change (zlen (chars "%s.%0")) with 5. change (zlen (chars "d")) with 1.
  destruct (Z.leb_spec (zlen (dir_of prefix) + (5 + (zlen (print_int 0 width) + 1)) + 1) 256); [reflexivity|lia].
Qed.

Lemma print_int_0 w : 0 <= w -> print_int 0 w = digits w.
Proof.
  intros H. unfold print_int. destruct (Z.ltb_spec w 0); [lia|]. cbn [app]. change (zlen (@nil Z)) with 0. pose proof (zlen_nonneg (digits (Z.abs w))).
  replace (Z.to_nat (0 - 0 - zlen (digits (Z.abs w)))) with O by lia. cbn [repeat app]. now rewrite Z.abs_eq by auto.
Qed.

Lemma name_ok prefix base width a : 0 <= width -> no_percent prefix ->
  spr PLit (dir_of prefix ++ chars "%s.%0" ++ print_int 0 width ++ chars "d") [AStr base; AInt a] = Ok (name_of prefix base width a).
Proof.
  intros Hw Hp. rewrite spr_lit.
  2: { destruct prefix as [[|c p]|]; cbn [dir_of]; auto. intros X. apply in_app_iff in X. destruct X as [X|X]; [eapply Hp; eauto|]. cbn in X. destruct X as [X|[]]; discriminate. }
  assert (E : spr PLit (chars "%s.%0" ++ print_int 0 width ++ chars "d") [AStr base; AInt a]
     = do r <- spr (PWid true 0) (print_int 0 width ++ chars "d") [AInt a] ; Ok (base ++ 46 :: r)).
  { transitivity (do r <- (do r <- spr (PWid true 0) (print_int 0 width ++ chars "d") [AInt a] ; Ok (46 :: r)) ; Ok (base ++ r)); [reflexivity|].
    destruct (spr (PWid true 0) (print_int 0 width ++ chars "d") [AInt a]); reflexivity. }
  rewrite E. rewrite print_int_0 by auto. rewrite spr_digits by (apply digits_digit; auto). change (fold_left _ (digits width) 0) with (digits_val (digits width)).
  rewrite digits_value by auto. cbv -[print_int digits app]. rewrite app_nil_r. reflexivity.
Qed.

(** C16: the names are the directory given by -p, the input file's name without
    directories, a dot and the number, and they are pairwise distinct. *)
Theorem C16_names_partial : forall prefix width start file base n,
  0 <= width -> 0 <= n -> no_percent prefix -> is_base file base -> fits prefix base width start n ->
  exists names, scatter_names prefix width start file n = Ok names
    /\ zlen names = n /\ NoDup names
    /\ forall i, 0 <= i < n -> zget names i = Some (name_of prefix base width (start + i)).
Proof.
  intros prefix width start file base n Hw Hn Hp Hb [Hf1 Hf2]. unfold scatter_names. rewrite format_ok by auto. cbn [bind].
  rewrite (is_base_unique file _ base (strip_is_base file) Hb).
  match goal with |- context [ofor 0 n ?f _] =>
    destruct (ofor_inv (fun i names => zlen names = i /\ forall k, 0 <= k < i -> zget names k = Some (name_of prefix base width (start + k))) f 0 n []) as (names & E & Hl & Hg) end; auto.
  - split; [reflexivity|]. intros k Hk. lia.
  - intros i names Hi (Hl & Hg). unfold sprintf. rewrite name_ok by auto. cbn [bind]. specialize (Hf2 i ltac:(lia)). rewrite (Z.add_comm i start).
    destruct (Z.leb_spec (zlen (name_of prefix base width (start + i)) + 1) 256); [|lia]. cbn [bind]. eexists. split; [reflexivity|]. split.
    + rewrite zlen_app. cbn. lia.
    + intros k Hk. destruct (Z.eq_dec k i) as [->|].
      * rewrite zget_app_r by lia. rewrite Hl, Z.sub_diag. apply zget_cons_0.
      * rewrite zget_app_l by lia. apply Hg. lia.
  - exists names. split; auto. rewrite Z.add_0_l in *. split; auto. split; auto.
    apply NoDup_nth_error. intros i j Hi Eij.
    assert (Gi : zget names (Z.of_nat i) = nth_error names i) by (unfold zget; destruct (Z.ltb_spec (Z.of_nat i) 0); [lia|now rewrite Nat2Z.id]).
    assert (Gj : zget names (Z.of_nat j) = nth_error names j) by (unfold zget; destruct (Z.ltb_spec (Z.of_nat j) 0); [lia|now rewrite Nat2Z.id]).
    assert (Hj : (j < List.length names)%nat) by (apply nth_error_Some; rewrite <- Eij; apply nth_error_Some; auto).
    rewrite <- Gi, <- Gj in Eij. rewrite !Hg in Eij by (unfold zlen in *; lia). injection Eij as Eij. unfold name_of in Eij.
    do 3 apply app_inv_head in Eij. apply print_int_inj in Eij. lia.
Qed.
Print Assumptions C16_names_partial.

Lemma fits_2048 base w a : zlen base + zlen (print_int w a) <= 2046 -> zlen (base ++ chars "." ++ print_int w a) + 1 <=? 2048 = true.
Proof. intros H. rewrite !zlen_app. change (zlen (chars ".")) with 1. lia. Qed.
Lemma sprintf4 base a : zlen base + zlen (print_int 4 a) <= 2046 -> sprintf 2048 (chars "%s.%04d") [AStr base; AInt a] = Ok (base ++ chars "." ++ print_int 4 a).
Proof.
  intros H. unfold sprintf.
  assert (E : spr PLit (chars "%s.%04d") [AStr base; AInt a] = Ok (base ++ chars "." ++ print_int 4 a ++ [])) by reflexivity.
  rewrite E, app_nil_r. cbn [bind]. now rewrite fits_2048.
Qed.
Lemma sprintfw base w a : 0 <= w -> zlen base + zlen (print_int w a) <= 2046 -> sprintf 2048 (chars "%s.%0*d") [AStr base; AInt w; AInt a] = Ok (base ++ chars "." ++ print_int w a).
Proof.
  intros Hw H. unfold sprintf.
  assert (E : spr PLit (chars "%s.%0*d") [AStr base; AInt w; AInt a] = if w <? 0 then UB else Ok (base ++ chars "." ++ print_int w a ++ [])).
  { destruct (w <? 0) eqn:Ew; cbv -[Z.ltb print_int app]; rewrite Ew; reflexivity. }
  rewrite E, app_nil_r. destruct (Z.ltb_spec w 0); [lia|]. cbn [bind]. now rewrite fits_2048.
Qed.

Lemma search_ok ex base start n : 0 <= n ->
  (forall i, 0 <= i < n -> zlen base + zlen (print_int 4 (start + i)) <= 2046) ->
  (forall i, 0 <= i < n -> ex (base ++ chars "." ++ print_int 4 (start + i)) = true) ->
  exists names, combine_names ex base start n = Ok names /\ zlen names = n /\ forall i, 0 <= i < n -> zget names i = Some (base ++ chars "." ++ print_int 4 (start + i)).
Proof.
  intros Hn Hl Hex. unfold combine_names.
  match goal with |- context [ofor start n ?f _] =>
    destruct (ofor_inv (fun a (st : Z * list str) => (fst st = 4 \/ fst st = -1) /\ zlen (snd st) = a - start /\ forall i, 0 <= i < a - start -> zget (snd st) i = Some (base ++ chars "." ++ print_int 4 (start + i))) f start n (-1, [])) as ([w names] & E & Hw & Hlen & Hg) end; auto.
  - cbn [fst snd]. split; auto. split; [cbn; lia|]. intros i Hi. lia.
  - intros a [w names] Ha (Hw & Hlen & Hg). cbn [fst snd] in *.
    assert (Ea : start + (a - start) = a) by lia. pose proof (Hl (a - start) ltac:(lia)) as L. pose proof (Hex (a - start) ltac:(lia)) as X. rewrite Ea in *.
    assert (Ew : (if w <? 0 then
        do n4 <- sprintf 2048 (chars "%s.%04d") [AStr base; AInt a] ;
        if ex n4 then Ok 4 else
        do n6 <- sprintf 2048 (chars "%s.%06d") [AStr base; AInt a] ;
        if ex n6 then Ok 6 else Ok (-1)
      else Ok w) = Ok 4).
    { destruct Hw as [->| ->]; [reflexivity|]. rewrite sprintf4 by auto. cbn [bind]. change (-1 <? 0) with true. cbv iota. now rewrite X. }
    rewrite Ew. cbn [bind]. change (4 <? 0) with false. cbv iota. rewrite sprintfw by (auto; lia). cbn [bind]. rewrite X. eexists. split; [reflexivity|]. cbn [fst snd]. split; auto. split.
    + rewrite zlen_app. cbn. lia.
    + intros i Hi. destruct (Z.eq_dec i (a - start)) as [->|].
      * rewrite zget_app_r by lia. rewrite Hlen, Z.sub_diag, Ea. apply zget_cons_0.
      * rewrite zget_app_l by lia. apply Hg. lia.
  - rewrite E. cbn [bind]. exists names. split; auto. cbn [fst snd] in *. split; [lia|]. intros i Hi. apply Hg. lia.
Qed.

(** C16: with the default width and the same start number, the combiner called with
    the directory and base name of the scattered files processes exactly these files,
    in order, whatever other files exist. *)
Theorem C16_combiner_finds : forall prefix start file base n ex,
  0 <= n -> no_percent prefix -> is_base file base -> fits prefix base 4 start n ->
  exists names, scatter_names prefix 4 start file n = Ok names
    /\ ((forall nm, In nm names -> ex nm = true) -> combine_names ex (dir_of prefix ++ base) start n = Ok names).
Proof.
  intros prefix start file base n ex Hn Hp Hb Hf. destruct (C16_names_partial prefix 4 start file base n) as (names & E & Hl & _ & Hg); auto; [lia|].
  exists names. split; auto. intros Hex.
  assert (En : forall i, (dir_of prefix ++ base) ++ chars "." ++ print_int 4 (start + i) = name_of prefix base 4 (start + i)).
  { intros i. unfold name_of. now rewrite <- app_assoc. }
  destruct (search_ok ex (dir_of prefix ++ base) start n Hn) as (names' & E' & Hl' & Hg').
  - intros i Hi. destruct Hf as [_ Hf]. specialize (Hf i Hi). rewrite <- En, !zlen_app in Hf. rewrite zlen_app. change (zlen (chars ".")) with 1 in Hf. lia.
  - intros i Hi. apply Hex. rewrite En. eapply zget_In. apply Hg. auto.
  - rewrite E'. f_equal. apply zget_ext; [lia|]. intros i Hi. rewrite Hg', Hg by lia. now rewrite En.
Qed.
Print Assumptions C16_combiner_finds.

(** C16 is false for a prefix with a percent sign, which is taken as a conversion... *)
Theorem C16_percent_refuted : scatter_names (Some (chars "50%d")) 4 0 (chars "a.nc") 2 = UB.
Proof. vm_compute. reflexivity. Qed.
Print Assumptions C16_percent_refuted.
(** ... and for long names: the buffers have 256 bytes. *)
Theorem C16_long_name_refuted : scatter_names None 4 0 (repeat 97 251%nat) 1 = UB.
Proof. vm_compute. reflexivity. Qed.
Print Assumptions C16_long_name_refuted.

(** With a width other than 4 and 6 the combiner finds nothing. *)
Example C16_width_5 : exists names, scatter_names None 5 0 (chars "a.nc") 2 = Ok names /\
  combine_names (fun nm => existsb (str_eqb nm) names) (chars "a.nc") 0 2 = Ok [].
Proof. eexists. split; vm_compute; reflexivity. Qed.

Example C16_example : scatter_names (Some (chars "out")) 4 9999 (chars "in/x/a.nc") 2 = Ok [chars "out/a.nc.9999"; chars "out/a.nc.10000"]
  /\ no_percent (Some (chars "out")) /\ is_base (chars "in/x/a.nc") (chars "a.nc") /\ fits (Some (chars "out")) (chars "a.nc") 4 9999 2.
Proof.
  split; [vm_compute; reflexivity|]. split; [|split; [|split]].
  - intros p E. injection E as <-. cbn. intuition discriminate.
  - split; [cbn; intuition discriminate|]. right. exists (chars "in/x"). reflexivity.
  - vm_compute. discriminate.
  - intros i Hi. assert (i = 0 \/ i = 1) as [-> | ->] by lia; vm_compute; discriminate.
Qed.
