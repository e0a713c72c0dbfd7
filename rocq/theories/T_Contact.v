(** * C35, C36, C37: contact strings, tokenize, contact indices *)
From Coq Require Import String.
Open Scope list_scope.
From Verif Require Import Base Str M_ScatterName M_Contact Spec_Contact P_Contact P_Contact2 Lst.

(** ** C36 *)

(** tokenize returns exactly the fields of the string, or refuses: it refuses exactly
    when there are more than [maxvar] fields or one is as long as [varlen] (there is
    then no room for the terminating NUL).  It never writes outside the buffer. *)
Theorem C36_tokenize : forall (s seps : list Z) varlen maxvar p,
  0 < varlen -> 0 < maxvar -> zlen p = maxvar * varlen -> s <> [] -> ~ In 0 s ->
  let fs := fields_of seps s in
  ((forall f, In f fs -> zlen f < varlen) /\ zlen fs <= maxvar ->
     exists p', tokenize s seps varlen maxvar p = Ok (p', zlen fs) /\ zlen p' = zlen p /\
       forall r f, zget fs r = Some f -> string_at p' (r * varlen) f) /\
  (~ ((forall f, In f fs -> zlen f < varlen) /\ zlen fs <= maxvar) ->
     exists e, tokenize s seps varlen maxvar p = Err e).
Proof.
  intros s seps varlen maxvar p Hv Hm HL Hs Hz fs.
  pose proof (tokenize_run seps varlen maxvar Hv s p Hs Hz Hm HL) as R. cbv zeta in R. fold fs in R.
  split; intros H.
  - rewrite (proj2 (fits_spec _ _ _) H) in R. auto.
  - destruct (fits varlen maxvar fs) eqn:E; auto. apply fits_spec in E. contradiction.
Qed.
(** An empty string is refused. *)
Theorem C36_empty : forall seps varlen maxvar p, tokenize [] seps varlen maxvar p = Err 1.
Proof. reflexivity. Qed.

(** Fields joined by runs of separators come back unchanged. *)
Fixpoint joined (l : list (list Z * list Z)) (f : list Z) : list Z :=
  match l with [] => f | (g, sep) :: l => g ++ sep ++ joined l f end.
Theorem C36_join : forall seps l f,
  (forall g sep, In (g, sep) l -> plain seps g /\ sep <> [] /\
     forall c, In c sep -> is_one_of seps c = true /\ blank c = false) ->
  plain seps f ->
  fields_of seps (joined l f) = map fst l ++ [f].
Proof.
  intros seps l f. induction l as [|[g sep] l IH]; intros H Hf.
  - apply fields_last. exact (proj2 Hf).
  - cbn [joined map fst app]. destruct (H g sep (or_introl eq_refl)) as ([G1 G2] & S1 & S2).
    destruct sep as [|c sep]; [congruence|]. cbn [app].
    rewrite fields_next; auto; try (apply S2; left; auto). f_equal.
    rewrite <- IH by (auto; intros g' sep' Hi; apply H; right; auto).
    assert (K : forall c, In c sep -> is_one_of seps c = true /\ blank c = false) by (intros d Hd; apply S2; right; auto).
    clear -K. induction sep as [|d sep IHs]; auto. cbn [app]. destruct (K d (or_introl eq_refl)).
    rewrite fields_sep by auto. apply IHs. intros e He. apply K. right; auto.
Qed.
Print Assumptions C36_tokenize.
Print Assumptions C36_join.

Example C36_example : fields_of (chars ":,") (chars "1:96, 1:1::3 ::4,") =
  [chars "1"; chars "96"; chars "1"; chars "1"; chars "3"; chars "4"; []].
Proof. reflexivity. Qed.

(** A blank listed among the separators does not separate: blanks are deleted before
    the separators are looked at.  fregrid splits the "coordinates" attribute at ", "
    (fregrid_util.c:1797); the attribute is a blank-separated list. *)
Theorem C36_blank_separator_refuted :
  ~ (forall s seps varlen maxvar p, 0 < varlen -> 0 < maxvar -> zlen p = maxvar * varlen -> s <> [] -> ~ In 0 s ->
     forall p' n, tokenize s seps varlen maxvar p = Ok (p', n) ->
     n = zlen (filter nonempty (pieces (is_one_of seps) s))).
Proof.
  intros H.
  assert (E : exists p', tokenize (chars "lon lat") (chars ", ") 10 3 (repeat 0 30) = Ok (p', 1)) by (eexists; reflexivity).
  destruct E as (p' & E).
  specialize (H (chars "lon lat") (chars ", ") 10 3 (repeat 0 30)).
  assert (X : 1 = zlen (filter nonempty (pieces (is_one_of (chars ", ")) (chars "lon lat")))).
  { apply (H ltac:(lia) ltac:(lia) eq_refl ltac:(discriminate)) with (p' := p'); auto. cbn. intuition discriminate. }
  discriminate X.
Qed.

(** ** C37 *)

(** A range of supergrid cells of a tile with [n] model cells is converted to the model
    range that it covers, or refused if it does not consist of whole cells. *)
Theorem C37_range : forall n a b, 1 <= a <= 2 * n -> 1 <= b <= 2 * n ->
  (a = b \/ whole_cells a b ->
     exists a' b', transfer_to_model_index a b 2 = Ok (one_if_long a b, a', b') /\ range_converted n a b a' b') /\
  (a <> b -> ~ whole_cells a b -> exists e, transfer_to_model_index a b 2 = Err e).
Proof.
  intros n a b Ha Hb. split.
  - intros H. unfold one_if_long. destruct (Z.eqb_spec a b) as [<-|Hne].
    + destruct (transfer_eq a n Ha) as (m & E & C & R). exists m, m. split; auto.
      unfold range_converted, same_direction. repeat split; auto; lia.
    + destruct H as [H|H]; [contradiction|]. destruct (transfer_ne a b n Ha Hb Hne) as [K _].
      destruct (K H) as (a' & b' & E & C1 & C2 & R1 & R2 & D & L). exists a', b'. split; auto.
      unfold range_converted. auto 10.
  - intros Hne H. eexists. now apply (transfer_ne a b n Ha Hb Hne).
Qed.
(** Two ranges of equal length have equally many model cells. *)
Theorem C37_equal_length : forall n a b m c d,
  range_ok n a b -> range_ok m c d -> a <> b -> c <> d -> range_len a b = range_len c d ->
  exists a' b' c' d', transfer_to_model_index a b 2 = Ok (1, a', b') /\ transfer_to_model_index c d 2 = Ok (1, c', d') /\
    range_len a' b' = range_len c' d'.
Proof.
  intros n a b m c d (A1 & A2 & A3) (C1 & C2 & C3) Hab Hcd L.
  destruct (C37_range n a b A1 A2) as [P _]. destruct (P A3) as (a' & b' & E1 & R1).
  destruct (C37_range m c d C1 C2) as [Q _]. destruct (Q C3) as (c' & d' & E2 & R2).
  unfold one_if_long in *. destruct (Z.eqb_spec a b); [contradiction|]. destruct (Z.eqb_spec c d); [contradiction|].
  exists a', b', c', d'. repeat split; auto. unfold range_converted in *. intuition lia.
Qed.
Print Assumptions C37_range.
Print Assumptions C37_equal_length.

Example C37_example : transfer_to_model_index 96 1 2 = Ok (1, 47, 0) /\ range_ok 48 96 1 /\ transfer_to_model_index 96 2 2 = Err 10.
Proof.
  split; [reflexivity|]. split; [|reflexivity]. unfold range_ok, whole_cells. split; [lia|]. split; [lia|]. right. split; reflexivity.
Qed.

(** ** C35 *)
Definition names_ok (mosaic : list Z) (tiles : list (list Z)) : Prop :=
  plain (chars ":") mosaic /\ (forall t, In t tiles -> plain (chars ":") t) /\ NoDup tiles.
Definition names_fit (mosaic n1 n2 : list Z) : Prop := 2 * zlen mosaic + zlen n1 + zlen n2 + 5 <= 255.

Lemma plain_no0 seps s : plain seps s -> ~ In 0 s.
Proof. intros [_ H] I. destruct (H 0 I) as (_ & _ & K). congruence. Qed.

(** The strings of a contact are written without overflowing the buffer, and parsed as
    the same tiles (counted from one) and the same eight indices, whatever the buffer
    of the reader held before. *)
Theorem C35_strings : forall mosaic tiles k n1 n2 p,
  names_ok mosaic tiles -> zget tiles (k_tile1 k) = Some n1 -> zget tiles (k_tile2 k) = Some n2 ->
  names_fit mosaic n1 n2 -> indices_ok k -> zlen p = 255 * 40 ->
  exists s x p', write_contact mosaic tiles k = Ok (s, x) /\ zlen p' = 255 * 40 /\
    parse_contact tiles p s x = Ok (p',
      {| k_tile1 := k_tile1 k + 1; k_tile2 := k_tile2 k + 1;
         k_is1 := k_is1 k; k_ie1 := k_ie1 k; k_js1 := k_js1 k; k_je1 := k_je1 k;
         k_is2 := k_is2 k; k_ie2 := k_ie2 k; k_js2 := k_js2 k; k_je2 := k_je2 k |}).
Proof.
  intros mosaic tiles k n1 n2 p (HM & HT & ND) H1 H2 HF HI HP.
  assert (P1 : plain (chars ":") n1) by (apply HT; eapply zget_In; eauto).
  assert (P2 : plain (chars ":") n2) by (apply HT; eapply zget_In; eauto).
  unfold names_fit in HF. unfold write_contact.
  rewrite (proj2 (@oget_Ok str _ _ _) H1), (proj2 (@oget_Ok str _ _ _) H2). cbn [bind].
  unfold sprintf. rewrite spr_contact, spr_index. cbn [bind].
  set (s := mosaic ++ _). set (x := print_int 0 (k_is1 k) ++ _).
  assert (Ls : zlen s + 1 <= STRING).
  { unfold s, STRING. repeat rewrite ?zlen_app, ?zlen_cons. lia. }
  assert (Lx : zlen x + 1 <= STRING).
  { unfold x, STRING. repeat rewrite ?zlen_app, ?zlen_cons. unfold indices_ok, index_ok in HI.
    pose proof (print_len (k_is1 k)). pose proof (print_len (k_ie1 k)). pose proof (print_len (k_js1 k)). pose proof (print_len (k_je1 k)).
    pose proof (print_len (k_is2 k)). pose proof (print_len (k_ie2 k)). pose proof (print_len (k_js2 k)). pose proof (print_len (k_je2 k)). lia. }
  destruct (Z.leb_spec (zlen s + 1) STRING); [|lia]. destruct (Z.leb_spec (zlen x + 1) STRING); [|lia]. cbn [bind].
  assert (Fs : fields_of (chars ":") s = [mosaic; n1; mosaic; n2]).
  { unfold s. rewrite fields_next by (try exact (proj1 HM); try exact (proj2 HM); reflexivity). f_equal.
    rewrite fields_next by (try exact (proj1 P1); try exact (proj2 P1); reflexivity). f_equal.
    rewrite fields_sep by reflexivity. rewrite fields_next by (try exact (proj1 HM); try exact (proj2 HM); reflexivity). f_equal.
    apply fields_last. exact (proj2 P2). }
  unfold indices_ok, index_ok in HI.
  assert (Fx : fields_of (chars ":,") x = [print_int 0 (k_is1 k); print_int 0 (k_ie1 k); print_int 0 (k_js1 k); print_int 0 (k_je1 k);
      print_int 0 (k_is2 k); print_int 0 (k_ie2 k); print_int 0 (k_js2 k); print_int 0 (k_je2 k)]).
  { unfold x.
    do 3 (rewrite fields_next by (first [reflexivity | apply print_ne | (apply print_plain; [lia|reflexivity])]); f_equal).
    rewrite fields_next by (first [reflexivity | apply print_ne | (apply print_plain; [lia|reflexivity])]). f_equal.
    rewrite fields_sep by reflexivity.
    do 3 (rewrite fields_next by (first [reflexivity | apply print_ne | (apply print_plain; [lia|reflexivity])]); f_equal).
    apply fields_last. apply print_plain; [lia|reflexivity]. }
  assert (Zs : ~ In 0 s).
  { pose proof (plain_no0 _ _ HM). pose proof (plain_no0 _ _ P1). pose proof (plain_no0 _ _ P2).
    unfold s. rewrite !in_app_iff. cbn [In]. rewrite !in_app_iff. cbn [In]. rewrite !in_app_iff. cbn [In]. intuition lia. }
  assert (Z0 : forall n, 0 <= n -> ~ In 0 (print_int 0 n)).
  { intros n Hn I. destruct (print_plain (chars ":") n Hn eq_refl 0 I) as (_ & _ & K). congruence. }
  assert (Zx : ~ In 0 x).
  { unfold x. repeat (rewrite in_app_iff; cbn [In]). 
    pose proof (Z0 (k_is1 k)). pose proof (Z0 (k_ie1 k)). pose proof (Z0 (k_js1 k)). pose proof (Z0 (k_je1 k)).
    pose proof (Z0 (k_is2 k)). pose proof (Z0 (k_ie2 k)). pose proof (Z0 (k_js2 k)). pose proof (Z0 (k_je2 k)). intuition lia. }
  assert (Ns : s <> []) by (unfold s; destruct mosaic; discriminate).
  assert (Nx : x <> []) by (unfold x; intros E; apply app_eq_nil in E; destruct E; discriminate).
  destruct (C36_tokenize s (chars ":") STRING MAXVAR p) as [T1 _]; auto; try reflexivity.
  rewrite Fs in T1. destruct T1 as (p1 & E1 & L1 & R1).
  { split; [|cbn; unfold MAXVAR; lia]. pose proof (zlen_nonneg mosaic). pose proof (zlen_nonneg n1). pose proof (zlen_nonneg n2).
    unfold STRING. intros f Hf. destruct Hf as [<-|[<-|[<-|[<-|[]]]]]; lia. }
  destruct (C36_tokenize x (chars ":,") STRING MAXVAR p1) as [T2 _]; auto; try reflexivity; try (rewrite L1; exact HP).
  rewrite Fx in T2. destruct T2 as (p2 & E2 & L2 & R2).
  { split; [|cbn; unfold MAXVAR; lia]. unfold STRING.
    pose proof (print_len (k_is1 k)). pose proof (print_len (k_ie1 k)). pose proof (print_len (k_js1 k)). pose proof (print_len (k_je1 k)).
    pose proof (print_len (k_is2 k)). pose proof (print_len (k_ie2 k)). pose proof (print_len (k_js2 k)). pose proof (print_len (k_je2 k)).
    intros f Hf. destruct Hf as [<-|[<-|[<-|[<-|[<-|[<-|[<-|[<-|[]]]]]]]]]; lia. }
  exists s, x, p2. split; auto. split; [congruence|].
  unfold parse_contact. rewrite E1. cbn [bind].
  change (zlen [mosaic; n1; mosaic; n2]) with 4. change (negb (4 =? 4)) with false. cbv iota.
  rewrite (row_string STRING p1 1 n1) by (try (unfold STRING; lia); apply R1; reflexivity). cbn [bind].
  rewrite (find_tile_ok tiles (k_tile1 k) n1 0 ND H1). cbn [bind].
  rewrite (row_string STRING p1 3 n2) by (try (unfold STRING; lia); apply R1; reflexivity). cbn [bind].
  rewrite (find_tile_ok tiles (k_tile2 k) n2 0 ND H2). cbn [bind].
  rewrite E2. cbn [bind].
  match goal with |- context [negb (?a =? 8)] => change (negb (a =? 8)) with false end. cbv iota.
  rewrite (number_ok p2 0 (k_is1 k)) by (try lia; apply R2; reflexivity). cbn [bind].
  rewrite (number_ok p2 1 (k_ie1 k)) by (try lia; apply R2; reflexivity). cbn [bind].
  rewrite (number_ok p2 2 (k_js1 k)) by (try lia; apply R2; reflexivity). cbn [bind].
  rewrite (number_ok p2 3 (k_je1 k)) by (try lia; apply R2; reflexivity). cbn [bind].
  rewrite (number_ok p2 4 (k_is2 k)) by (try lia; apply R2; reflexivity). cbn [bind].
  rewrite (number_ok p2 5 (k_ie2 k)) by (try lia; apply R2; reflexivity). cbn [bind].
  rewrite (number_ok p2 6 (k_js2 k)) by (try lia; apply R2; reflexivity). cbn [bind].
  rewrite (number_ok p2 7 (k_je2 k)) by (try lia; apply R2; reflexivity). cbn [bind].
  reflexivity.
Qed.

Lemma to_model_ok nt nx ny k : contact_ok nt nx ny k ->
  exists k', to_model {| k_tile1 := k_tile1 k + 1; k_tile2 := k_tile2 k + 1;
         k_is1 := k_is1 k; k_ie1 := k_ie1 k; k_js1 := k_js1 k; k_je1 := k_je1 k;
         k_is2 := k_is2 k; k_ie2 := k_ie2 k; k_js2 := k_js2 k; k_je2 := k_je2 k |} = Ok k' /\ contact_converted nx ny k k'.
Proof.
  intros (T1 & T2 & (A1 & A2 & A3) & (B1 & B2 & B3) & (C1 & C2 & C3) & (D1 & D2 & D3) & S & P).
  destruct (C37_range _ _ _ A1 A2) as [QA _]. destruct (QA A3) as (a & a' & EA & RA).
  destruct (C37_range _ _ _ B1 B2) as [QB _]. destruct (QB B3) as (b & b' & EB & RB).
  destruct (C37_range _ _ _ C1 C2) as [QC _]. destruct (QC C3) as (c & c' & EC & RC).
  destruct (C37_range _ _ _ D1 D2) as [QD _]. destruct (QD D3) as (d & d' & ED & RD).
  unfold to_model. cbn [k_tile1 k_tile2 k_is1 k_ie1 k_js1 k_je1 k_is2 k_ie2 k_js2 k_je2].
  rewrite EA, EB, EC, ED. cbn [bind].
  assert (G : forall u v, one_if_long u v = 0 \/ one_if_long u v = 1) by (intros u v; unfold one_if_long; destruct (u =? v); auto).
  pose proof (G (k_is1 k) (k_ie1 k)). pose proof (G (k_js1 k) (k_je1 k)). pose proof (G (k_is2 k) (k_ie2 k)). pose proof (G (k_js2 k) (k_je2 k)).
  destruct ((one_if_long (k_is1 k) (k_ie1 k) =? 0) && (one_if_long (k_js1 k) (k_je1 k) =? 0)) eqn:Q1; [lia|].
  destruct ((one_if_long (k_is2 k) (k_ie2 k) =? 0) && (one_if_long (k_js2 k) (k_je2 k) =? 0)) eqn:Q2; [lia|].
  destruct (Z.eqb_spec (one_if_long (k_is1 k) (k_ie1 k) + one_if_long (k_js1 k) (k_je1 k))
                       (one_if_long (k_is2 k) (k_ie2 k) + one_if_long (k_js2 k) (k_je2 k))); [|lia]. cbn [negb].
  eexists. split; [reflexivity|]. unfold contact_converted. cbn. auto 10.
Qed.

(** All the contacts of a mosaic that make_solo_mosaic writes are read back. *)
Theorem C35_roundtrip : forall mosaic tiles nx ny ks p,
  names_ok mosaic tiles ->
  (forall t, 2 * nx t < 2147483648 /\ 2 * ny t < 2147483648) ->
  (forall k, In k ks -> contact_ok (zlen tiles) nx ny k) ->
  (forall n1 n2, In n1 tiles -> In n2 tiles -> names_fit mosaic n1 n2) ->
  zlen p = 255 * 40 ->
  exists strs ks', write_contacts mosaic tiles ks = Ok strs /\ zlen strs = zlen ks /\
    read_mosaic_contact tiles p strs = Ok ks' /\ Forall2 (contact_converted nx ny) ks ks'.
Proof.
  intros mosaic tiles nx ny ks p HN Hsz HK HF HP.
  unfold write_contacts, read_mosaic_contact.
  assert (G : forall ks, (forall k, In k ks -> contact_ok (zlen tiles) nx ny k) ->
    exists strs ks' p', zlen strs = zlen ks /\ Forall2 (contact_converted nx ny) ks ks' /\
      (forall out, ofold (fun out k => do sx <- write_contact mosaic tiles k ; Ok (out ++ [sx])) ks out = Ok (out ++ strs)) /\
      ofold (fun '(p, ks) '(s, x) => do '(p, k) <- parse_contact tiles p s x ; do k <- to_model k ; Ok (p, ks ++ [k])) strs (p, []) = Ok (p', ks') /\
      zlen p' = 255 * 40).
  { clear HK ks. intros ks. induction ks as [|k ks IH] using rev_ind; intros HK.
    - exists [], [], p. split; auto. split; [constructor|]. split; [intros; cbn; now rewrite app_nil_r|]. auto.
    - destruct IH as (strs & ks' & p' & L & F & W & R & Lp); [intros q Hq; apply HK; apply in_app_iff; auto|].
      assert (CK : contact_ok (zlen tiles) nx ny k) by (apply HK; apply in_app_iff; right; left; auto).
      destruct (zget_in_range tiles (k_tile1 k)) as [n1 H1]; [apply CK|].
      destruct (zget_in_range tiles (k_tile2 k)) as [n2 H2]; [apply CK|].
      destruct (C35_strings mosaic tiles k n1 n2 p') as (s & x & p2 & E1 & L2 & E2); auto.
      { apply HF; eapply zget_In; eauto. }
      { pose proof (Hsz (k_tile1 k)). pose proof (Hsz (k_tile2 k)). unfold contact_ok, range_ok in CK. unfold indices_ok, index_ok. lia. }
      destruct (to_model_ok _ _ _ _ CK) as (k' & E3 & C3).
      exists (strs ++ [(s, x)]), (ks' ++ [k']), p2. split; [rewrite !zlen_app, L; reflexivity|].
      split; [apply Forall2_app; auto|]. split; [|split; auto].
      + intros out. rewrite ofold_app, W. cbn [bind ofold]. rewrite E1. cbn [bind]. now rewrite app_assoc.
      + rewrite ofold_app, R. cbn [bind ofold]. rewrite E2. cbn [bind]. rewrite E3. cbn [bind]. reflexivity. }
  destruct (G ks HK) as (strs & ks' & p' & L & F & W & R & _).
  exists strs, ks'. split; [apply W|]. split; auto. split; auto. now rewrite R.
Qed.
Print Assumptions C35_strings.
Print Assumptions C35_roundtrip.

(** The hypotheses are met by a contact of a cubed sphere C48. *)
Example C35_example :
  let tiles := [chars "tile1"; chars "tile2"] in
  let k := {| k_tile1 := 0; k_tile2 := 1; k_is1 := 96; k_ie1 := 96; k_js1 := 1; k_je1 := 96; k_is2 := 96; k_ie2 := 1; k_js2 := 1; k_je2 := 1 |} in
  names_ok (chars "C48_mosaic") tiles /\ contact_ok 2 (fun _ => 48) (fun _ => 48) k /\
  (do strs <- write_contacts (chars "C48_mosaic") tiles [k] ; read_mosaic_contact tiles (repeat 7 (Z.to_nat 10200)) strs)
  = Ok [{| k_tile1 := 1; k_tile2 := 2; k_is1 := 47; k_ie1 := 47; k_js1 := 0; k_je1 := 47; k_is2 := 47; k_ie2 := 0; k_js2 := 0; k_je2 := 0 |}].
Proof.
  cbv zeta. split; [|split].
  - split; [|split].
    + split; [discriminate|]. cbn. intuition (subst; auto; discriminate).
    + intros t [<-|[<-|[]]]; (split; [discriminate|]; cbn; intuition (subst; auto; discriminate)).
    + repeat constructor; cbn; intuition discriminate.
  - unfold contact_ok, range_ok, one_if_long, whole_cells. cbn. repeat split; try lia; auto; right; auto.
  - vm_compute. reflexivity.
Qed.

(** A tile or mosaic name with a blank does not come back. *)
Theorem C35_blank_name_refuted :
  ~ (forall mosaic tiles k p, zlen p = 255 * 40 -> NoDup tiles ->
     (forall s x, write_contact mosaic tiles k = Ok (s, x) ->
       (forall c, In c (mosaic ++ flat_map (fun t => t) tiles) -> c <> 58 /\ c <> 0) ->
       exists p' k', parse_contact tiles p s x = Ok (p', k'))).
Proof.
  intros H.
  set (tiles := [chars "tile 1"]).
  set (k := {| k_tile1 := 0; k_tile2 := 0; k_is1 := 1; k_ie1 := 1; k_js1 := 1; k_je1 := 2; k_is2 := 4; k_ie2 := 4; k_js2 := 1; k_je2 := 2 |}).
  set (p := repeat 0 (Z.to_nat 10200)).
  assert (Hp : zlen p = 255 * 40) by (vm_compute; reflexivity).
  assert (HN : NoDup tiles) by (repeat constructor; cbn; tauto).
  assert (Ew : write_contact (chars "m") tiles k = Ok (chars "m:tile 1::m:tile 1", chars "1:1,1:2::4:4,1:2")) by (vm_compute; reflexivity).
  assert (X : parse_contact tiles p (chars "m:tile 1::m:tile 1") (chars "1:1,1:2::4:4,1:2") = Err 5) by (vm_compute; reflexivity).
  destruct (H (chars "m") tiles k p Hp HN _ _ Ew) as (p' & k' & E).
  - clear. subst tiles. cbn. intuition lia.
  - rewrite X in E. discriminate.
Qed.
