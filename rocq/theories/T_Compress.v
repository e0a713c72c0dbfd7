(** * Properties C18, C19, C22: compressed variables *)
From Verif Require Import Base Loops Lst M_Compress Spec_Compress P_Compress.
From Coq Require Import Permutation.

(** C18: reading a compressed variable puts each value at its grid point (the last one
    in the file if several belong to the same point), sets the mask there, and leaves
    the other points alone or fills them with the ocean value. *)
Theorem C18_decompress : forall A ds (buffer data : list A) mask ocean,
  Forall dim_ok ds -> zlen buffer = file_size ds -> zlen data = grid_size ds -> zlen mask = grid_size ds ->
  exists data' mask', get_compressed ds buffer data mask ocean = Ok (data', mask')
  /\ zlen data' = grid_size ds /\ zlen mask' = grid_size ds
  /\ (forall cs p, listed ds cs p -> (forall cs', listed ds cs' p -> file_pos ds cs' <= file_pos ds cs) ->
        zget data' p = zget buffer (file_pos ds cs) /\ zget mask' p = Some true)
  /\ (forall p, 0 <= p < grid_size ds -> (forall cs, ~ listed ds cs p) ->
        zget mask' p = zget mask p /\ zget data' p = match ocean with None => zget data p | Some v => Some v end).
Proof.
  intros A ds buffer data mask ocean Hds Hb Hd Hm.
  destruct (get_ok ds Hds buffer Hb data mask ocean Hd Hm) as (data' & mask' & E & L1 & L2 & HW). exists data', mask'. split; auto. split; [lia|]. split; [lia|]. split.
  - intros cs p Hl Hmax. destruct (listed_target ds Hds p) as [K1 K2]. destruct (K1 cs Hl) as [R1 R2]. destruct Hl as [Hv Hg].
    pose proof (grid_point_range ds Hds cs p Hv Hg). destruct (HW p ltac:(lia)) as [(k & Hk & Et & Hlast & G1 & G2)|(Hno & _)].
    + destruct (K2 k Hk Et) as [Hl' Hp']. specialize (Hmax _ Hl'). rewrite Hp' in Hmax.
      assert (k = file_pos ds cs) as -> by (destruct (Z.eq_dec k (file_pos ds cs)); auto; exfalso; apply (Hlast (file_pos ds cs)); auto; lia). auto.
    + exfalso. exact (Hno _ R1 R2).
  - intros p Hp Hno. destruct (listed_target ds Hds p) as [K1 K2]. destruct (HW p ltac:(lia)) as [(k & Hk & Et & _)|(_ & G1 & G2)]; auto.
    exfalso. destruct (K2 k Hk Et) as [Hl _]. exact (Hno _ Hl).
Qed.
Print Assumptions C18_decompress.

(** The integer version. *)
Theorem C18_decompress_int : forall ds (buffer data : list Z) mask,
  Forall dim_ok ds -> zlen buffer = file_size ds -> zlen data = grid_size ds -> zlen mask = grid_size ds ->
  exists data' mask', get_compressed_int ds buffer data mask = Ok (data', mask')
  /\ (forall cs p, listed ds cs p -> (forall cs', listed ds cs' p -> file_pos ds cs' <= file_pos ds cs) ->
        zget data' p = zget buffer (file_pos ds cs) /\ zget mask' p = Some true)
  /\ (forall p, 0 <= p < grid_size ds -> (forall cs, ~ listed ds cs p) -> zget mask' p = zget mask p /\ zget data' p = zget data p).
Proof.
  intros ds buffer data mask H1 H2 H3 H4. destruct (C18_decompress Z ds buffer data mask None H1 H2 H3 H4) as (d & m & E & _ & _ & R1 & R2). exists d, m. auto.
Qed.
Print Assumptions C18_decompress_int.

(** A 2 x 3 grid with a second (level) dimension of length 2; index 4, -1, 1 *)
Definition ex_dims : list cdim := [MkCdim 3 (Some [4; -1; 1]) 6; MkCdim 2 None 2].
Example C18_example : Forall dim_ok ex_dims /\ listed ex_dims [2; 1] 7 /\
  get_compressed ex_dims [10; 11; 12; 20; 21; 22] (repeat 0 12) (repeat false 12) None
  = Ok ([0; 12; 0; 0; 10; 0; 0; 22; 0; 0; 20; 0], [false; true; false; false; true; false; false; true; false; false; true; false]).
Proof.
  split; [|split; [|vm_compute; reflexivity]].
  - unfold ex_dims. apply Forall_cons; [|apply Forall_cons; [|apply Forall_nil]]; unfold dim_ok; cbn; [split; [lia|split; [reflexivity|intros; lia]]|split; [lia|reflexivity]].
  - split; [|reflexivity]. repeat constructor; cbn; lia.
Qed.

(** C19: writing a field and reading it back, into whatever data, gives the field at
    every indexed point, for every index list of valid indices. *)
Definition dim_valid (d : cdim) : Prop :=
  dim_ok d /\ match cd_idx d with Some l => forall x, In x l -> 0 <= x | None => True end.

Lemma valid_grid_point ds : Forall dim_valid ds -> forall cs, coords_ok ds cs -> exists p, grid_point ds cs = Some p.
Proof.
  intros H cs Hc. induction Hc as [|d ds c cs Hcd Hc IH].
  - exists 0. reflexivity.
  - inversion H as [|? ? [[Hd Hi] Hx] Hds]; subst. destruct (IH Hds) as (q & Eq). cbn [grid_point]. rewrite Eq. destruct (cd_idx d) as [l|].
    + destruct (zget_in_range l c ltac:(lia)) as (x & Ex). rewrite Ex. specialize (Hx x ltac:(eapply zget_In; eauto)). destruct (Z.ltb_spec x 0); [lia|eauto].
    + destruct (Z.ltb_spec c 0); [lia|eauto].
Qed.

Lemma put_ok A ds (src : list A) : Forall dim_valid ds -> zlen src = grid_size ds ->
  exists buffer, put_compressed ds src = Ok buffer /\ zlen buffer = file_size ds /\
    forall k p, 0 <= k < file_size ds -> target ds k = Some p -> zget buffer k = zget src p.
Proof.
  intros H Hs. assert (Hds : Forall dim_ok ds) by (eapply Forall_impl; [|exact H]; intros ? []; auto). unfold put_compressed. change (varsize ds) with (file_size ds). pose proof (file_size_pos ds Hds).
  match goal with |- context [ofor 0 _ ?f ?s] =>
    destruct (ofor_inv (fun i (st : list A * list Z) => snd st = coords ds i /\ zlen (fst st) = i /\ forall k p, 0 <= k < i -> target ds k = Some p -> zget (fst st) k = zget src p) f 0 (file_size ds) s) as ([b idx] & E & _ & Hl & Hg) end.
  - lia.
  - cbn [fst snd]. rewrite coords_0 by auto. split; auto. split; [reflexivity|lia].
  - intros i [b idx] Hi (Hx & Hl & Hg). cbn [fst snd] in *. subst idx. destruct (coords_valid ds Hds i ltac:(lia)) as [Hv _]. destruct (valid_grid_point ds H _ Hv) as (p & Ep).
    rewrite (psrc_ok ds Hds _ 1 0 p Hv Ep). cbn [bind]. replace (0 + 1 * p) with p by lia. pose proof (grid_point_range ds Hds _ _ Hv Ep).
    destruct (zget_in_range src p ltac:(lia)) as (v & Ev). rewrite (proj2 (oget_Ok _ _ _) Ev). cbn [bind]. eexists. split; [reflexivity|]. cbn [fst snd]. rewrite incr_coords by (auto; lia).
    split; auto. split; [rewrite zlen_app; cbn; lia|]. intros k q Hk Ht. destruct (Z.eq_dec k i) as [->|].
    + unfold target in Ht. rewrite zget_app_r by lia. rewrite Hl, Z.sub_diag, zget_cons_0. congruence.
    + rewrite zget_app_l by lia. apply Hg; [lia|auto].
  - rewrite E. cbn [bind fst snd] in *. exists b. rewrite Z.add_0_l in *. auto.
Qed.

Theorem C19_round_trip : forall A ds (field data : list A) mask ocean,
  Forall dim_valid ds -> zlen field = grid_size ds -> zlen data = grid_size ds -> zlen mask = grid_size ds ->
  exists buffer data' mask', put_compressed ds field = Ok buffer /\ get_compressed ds buffer data mask ocean = Ok (data', mask')
  /\ forall cs p, listed ds cs p -> zget data' p = zget field p /\ zget mask' p = Some true.
Proof.
  intros A ds field data mask ocean H Hf Hd Hm. assert (Hds : Forall dim_ok ds) by (eapply Forall_impl; [|exact H]; intros ? []; auto).
  destruct (put_ok A ds field H Hf) as (buffer & E1 & L & HP). destruct (get_ok ds Hds buffer L data mask ocean Hd Hm) as (d & m & E2 & L1 & L2 & HW).
  exists buffer, d, m. split; auto. split; auto. intros cs p Hl. destruct (listed_target ds Hds p) as [K1 _]. destruct (K1 cs Hl) as [R1 R2].
  pose proof (grid_point_range ds Hds cs p (proj1 Hl) (proj2 Hl)). destruct (HW p ltac:(lia)) as [(k & Hk & Et & _ & G1 & G2)|(Hno & _)].
  - rewrite G1, G2. split; auto. 
  - exfalso. exact (Hno _ R1 R2).
Qed.
Print Assumptions C19_round_trip.

(** C19 is false for integer variables: the file keeps its old contents. *)
Theorem C19_int_refuted :
  (forall ds src old new, put_compressed_int ds src old = Ok new -> new = old)
  /\ exists ds src old new, Forall dim_valid ds /\ put_compressed_int ds src old = Ok new
       /\ exists d m, get_compressed_int ds new [0; 0; 0] [false; false; false] = Ok (d, m) /\ listed ds [0] 1 /\ zget d 1 <> zget src 1.
Proof.
  split.
  - intros ds src old new H. unfold put_compressed_int in H. apply bind_inv in H. destruct H as ([b i] & _ & H). congruence.
  - exists [MkCdim 2 (Some [1; 2]) 3], [7; 8; 9], [5; 5], [5; 5]. split.
    + repeat constructor; cbn; try lia; intros; lia.
    + split; [reflexivity|]. do 2 eexists. split; [vm_compute; reflexivity|]. split; [split; [repeat constructor; cbn; lia|reflexivity]|]. vm_compute. discriminate.
Qed.
Print Assumptions C19_int_refuted.

Example C19_example : let ds := [MkCdim 3 (Some [4; 0; 1]) 6; MkCdim 2 None 2] in Forall dim_valid ds /\
  put_compressed ds (zseq 0 12) = Ok [4; 0; 1; 10; 6; 7].
Proof. split; [|vm_compute; reflexivity]. repeat constructor; cbn; try lia; intros; lia. Qed.

(** ** C22 *)
(** A file holds a value for a grid point. *)
Definition holds {A} (f : list cdim * list A) (p : Z) (v : A) : Prop :=
  exists cs, listed (fst f) cs p /\ zget (snd f) (file_pos (fst f) cs) = Some v
    /\ forall cs', listed (fst f) cs' p -> file_pos (fst f) cs' <= file_pos (fst f) cs.
Definition file_ok {A} (n : Z) (f : list cdim * list A) : Prop :=
  Forall dim_ok (fst f) /\ zlen (snd f) = file_size (fst f) /\ grid_size (fst f) = n.
Definition covers {A} (f : list cdim * list A) (p : Z) : Prop := exists cs, listed (fst f) cs p.
(** No grid point belongs to two files. *)
Definition disjoint_files {A} (fs : list (list cdim * list A)) : Prop :=
  forall i j f g p, zget fs i = Some f -> zget fs j = Some g -> covers f p -> covers g p -> i = j.

Lemma covers_dec {A} (f : list cdim * list A) n p : file_ok n f -> covers f p \/ ~ covers f p.
Proof.
  intros (Hds & _ & _). destruct (listed_target (fst f) Hds p) as [K1 K2].
  assert (D : forall m, (exists k, 0 <= k < Z.of_nat m /\ target (fst f) k = Some p) \/ (forall k, 0 <= k < Z.of_nat m -> target (fst f) k <> Some p)).
  { induction m as [|m IH]; [right; lia|]. destruct IH as [(k & Hk & E)|Hno]; [left; exists k; split; [lia|auto]|].
    destruct (target (fst f) (Z.of_nat m)) as [q|] eqn:E.
    - destruct (Z.eq_dec q p) as [->|]; [left; exists (Z.of_nat m); split; [lia|auto]|]. right. intros k Hk. destruct (Z.eq_dec k (Z.of_nat m)) as [->|]; [congruence|apply Hno; lia].
    - right. intros k Hk. destruct (Z.eq_dec k (Z.of_nat m)) as [->|]; [congruence|apply Hno; lia]. }
  pose proof (file_size_pos (fst f) Hds). destruct (D (Z.to_nat (file_size (fst f)))) as [(k & Hk & E)|Hno].
  - left. exists (coords (fst f) k). apply K2; auto. lia.
  - right. intros (cs & Hl). destruct (K1 cs Hl) as [R1 R2]. apply (Hno (file_pos (fst f) cs)); [lia|auto].
Qed.

Lemma option_eq_dec_Z (o : option Z) p : o = Some p \/ o <> Some p.
Proof. destruct o as [q|]; [destruct (Z.eq_dec q p) as [->|]; [left|right]; congruence|right; discriminate]. Qed.

Lemma fold_files {A} n (ocean : option A) fs : Forall (file_ok n) fs -> forall data mask, zlen data = n -> zlen mask = n ->
  exists data' mask', ofold (fun '(data, mask) '(ds, buffer) => get_compressed ds buffer data mask ocean) fs (data, mask) = Ok (data', mask')
  /\ zlen data' = n
  /\ (ocean = None -> forall p, 0 <= p < n ->
       (forall f v, In f fs -> holds f p v -> (forall g, In g fs -> covers g p -> g = f) -> zget data' p = Some v)
       /\ ((forall f, In f fs -> ~ covers f p) -> zget data' p = zget data p)).
Proof.
  induction 1 as [|[ds b] fs Hf Hfs IH]; intros data mask Hd Hm.
  - exists data, mask. split; [reflexivity|]. split; auto. intros _ p Hp. split; [intros f v []|auto].
  - cbn [ofold]. pose proof Hf as Hf0. destruct Hf as (Hds & Hb & Hn). cbn [fst snd] in *.
    destruct (C18_decompress A ds b data mask ocean Hds Hb ltac:(lia) ltac:(lia)) as (d1 & m1 & E1 & L1 & L2 & R1 & R2). rewrite E1. cbn [bind].
    destruct (IH d1 m1 ltac:(lia) ltac:(lia)) as (d2 & m2 & E2 & L3 & S). exists d2, m2. split; auto. split; [lia|].
    intros Ho p Hp. specialize (S Ho p Hp). destruct S as [S1 S2]. subst ocean. rewrite Hn in R2. split.
    + intros f v Hin Hh Huniq. destruct (covers_dec (ds, b) n p Hf0) as [Hc|Hc].
      * assert (f = (ds, b)) as -> by (symmetry; apply Huniq; [left|]; auto).
        destruct (existsb (fun g : list cdim * list A => false) fs) eqn:Ex; [apply existsb_exists in Ex; destruct Ex as (? & _ & ?); discriminate|].
        (* either a later file covers p too (then it is the same file) or the value stays *)
        assert (Dl : (exists g, In g fs /\ covers g p) \/ (forall g, In g fs -> ~ covers g p)).
        { clear -Hfs. induction Hfs as [|g fs Hg _ IH]; [right; intros g []|]. destruct (covers_dec g n p Hg) as [Hc|Hc]; [left; exists g; split; [left|]; auto|].
          destruct IH as [(h & Hh & Hc')|Hno]; [left; exists h; split; [right|]; auto|]. right. intros h [<-|Hh]; auto. }
        destruct Dl as [(g & Hg & Hcg)|Hno].
        -- assert (g = (ds, b)) as -> by (apply Huniq; [right|]; auto). apply (S1 (ds, b) v Hg Hh). intros h Hh' Hch. apply Huniq; [right|]; auto.
        -- rewrite (S2 Hno). destruct Hh as (cs & Hl & Ev & Hmax). cbn [fst snd] in *. destruct (R1 cs p Hl Hmax) as [-> _]. auto.
      * destruct Hin as [<-|Hin]; [exfalso; apply Hc; destruct Hh as (cs & Hl & _); exists cs; auto|].
        apply (S1 f v Hin Hh). intros g Hg Hcg. apply Huniq; [right|]; auto.
    + intros Hno. rewrite S2 by (intros f Hf'; apply Hno; right; auto). apply R2; auto. intros cs Hl. apply (Hno (ds, b)); [left; auto|exists cs; auto].
Qed.

(** C22, without an ocean value: the result has at each grid point the value of the
    file that covers it, and the missing value where none does. *)
Theorem C22_decompress_files_partial : forall A (missing : A) n (fs : list (list cdim * list A)),
  0 <= n -> Forall (file_ok n) fs -> disjoint_files fs ->
  exists data, decompress missing None n fs = Ok data /\ zlen data = n /\
    forall p, 0 <= p < n ->
      (forall f v, In f fs -> holds f p v -> zget data p = Some v)
      /\ ((forall f, In f fs -> ~ covers f p) -> zget data p = Some missing).
Proof.
  intros A missing n fs Hn Hfs Hdis. unfold decompress.
  destruct (fold_files n None fs Hfs (repeat missing (Z.to_nat n)) (repeat false (Z.to_nat n))) as (d & m & E & L & S); try (rewrite zlen_repeat; lia).
  rewrite E. cbn [bind]. exists d. split; auto. split; auto. intros p Hp. destruct (S eq_refl p Hp) as [S1 S2]. split.
  - intros f v Hin Hh. apply (S1 f v Hin Hh). intros g Hg Hcg. apply In_zget in Hin. apply In_zget in Hg. destruct Hin as (i & _ & Ei). destruct Hg as (j & _ & Ej).
    assert (Hcf : covers f p) by (destruct Hh as (cs & Hl & _); exists cs; auto). pose proof (Hdis i j f g p Ei Ej Hcf Hcg). congruence.
  - intros Hno. rewrite (S2 Hno). apply zget_repeat. lia.
Qed.
Print Assumptions C22_decompress_files_partial.

(** C22: two sets of files with the same points and values, for instance the same files
    in another order or one file with all the points, give the same result. *)
Theorem C22_same_points_partial : forall A (missing : A) n (fs gs : list (list cdim * list A)),
  0 <= n -> Forall (file_ok n) fs -> Forall (file_ok n) gs -> disjoint_files fs -> disjoint_files gs ->
  (forall p v, (exists f, In f fs /\ holds f p v) <-> (exists g, In g gs /\ holds g p v)) ->
  decompress missing None n fs = decompress missing None n gs.
Proof.
  intros A missing n fs gs Hn Hfs Hgs Df Dg Heq.
  destruct (C22_decompress_files_partial A missing n fs Hn Hfs Df) as (d & E & L & R). destruct (C22_decompress_files_partial A missing n gs Hn Hgs Dg) as (d' & E' & L' & R').
  rewrite E, E'. f_equal. apply zget_ext; [lia|]. intros p Hp. rewrite L in Hp. destruct (R p Hp) as [R1 R2]. destruct (R' p Hp) as [R1' R2'].
  assert (Hmax : forall (f : list cdim * list A) m, file_ok m f -> covers f p -> exists v, holds f p v).
  { intros f m (Hds & Hb & _) (cs & Hl). destruct (listed_target (fst f) Hds p) as [K1 K2].
    assert (D : forall k, (exists c, 0 <= c < Z.of_nat k /\ target (fst f) c = Some p) -> exists c, 0 <= c < Z.of_nat k /\ target (fst f) c = Some p /\ forall c', c < c' < Z.of_nat k -> target (fst f) c' <> Some p).
    { induction k as [|k IH]; intros (c & Hc & Ec); [lia|]. destruct (option_eq_dec_Z (target (fst f) (Z.of_nat k)) p) as [E1|E1].
      - exists (Z.of_nat k). split; [lia|]. split; auto. lia.
      - destruct IH as (c1 & Hc1 & Ec1 & Hm1). { exists c. split; auto. destruct (Z.eq_dec c (Z.of_nat k)) as [->|]; [congruence|lia]. }
        exists c1. split; [lia|]. split; auto. intros c' Hc'. destruct (Z.eq_dec c' (Z.of_nat k)) as [->|]; [auto|apply Hm1; lia]. }
    pose proof (file_size_pos (fst f) Hds). destruct (K1 cs Hl) as [Q1 Q2]. destruct (D (Z.to_nat (file_size (fst f)))) as (c & Hc & Ec & Hm).
    { exists (file_pos (fst f) cs). split; [lia|auto]. }
    rewrite Z2Nat.id in * by lia. destruct (K2 c Hc Ec) as [Hl' Hp']. destruct (zget_in_range (snd f) c ltac:(lia)) as (v & Ev). exists v, (coords (fst f) c). split; auto. rewrite Hp'. split; auto.
    intros cs' Hl''. destruct (K1 cs' Hl'') as [Q1' Q2']. destruct (Z.le_gt_cases (file_pos (fst f) cs') c); auto. exfalso. apply (Hm (file_pos (fst f) cs')); auto. lia. }
  assert (Dl : forall hs : list (list cdim * list A), Forall (file_ok n) hs -> (exists g, In g hs /\ covers g p) \/ (forall g, In g hs -> ~ covers g p)).
  { induction 1 as [|g hs Hg _ IH]; [right; intros g []|]. destruct (covers_dec g n p Hg) as [Hc|Hc]; [left; exists g; split; [left|]; auto|].
    destruct IH as [(h & Hh & Hc')|Hno]; [left; exists h; split; [right|]; auto|]. right. intros h [<-|Hh]; auto. }
  rewrite Forall_forall in Hfs, Hgs.
  destruct (Dl fs) as [(f & Hf & Hc)|Hno]; [now apply Forall_forall| |].
  - destruct (Hmax f n (Hfs f Hf) Hc) as (v & Hv). rewrite (R1 f v Hf Hv). destruct (proj1 (Heq p v)) as (g & Hg & Hgv); [eauto|]. now rewrite (R1' g v Hg Hgv).
  - rewrite (R2 Hno). destruct (Dl gs) as [(g & Hg & Hc)|Hno']; [now apply Forall_forall| |now rewrite (R2' Hno')].
    exfalso. destruct (Hmax g n (Hgs g Hg) Hc) as (v & Hv). destruct (proj2 (Heq p v)) as (f & Hf & (cs & Hl & _)); [eauto|]. apply (Hno f Hf). exists cs; auto.
Qed.
Print Assumptions C22_same_points_partial.

(** C22 is false when an ocean value is requested: each later file overwrites the
    points of the earlier ones with it. *)
Theorem C22_ocean_refuted :
  let f := ([MkCdim 1 (Some [0]) 3], [7]) in let g := ([MkCdim 1 (Some [2]) 3], [8]) in
  disjoint_files [f; g] /\ decompress 0 (Some 99) 3 [f; g] = Ok [99; 99; 8] /\ decompress 0 (Some 99) 3 [g; f] = Ok [7; 99; 99]
  /\ decompress 0 (Some 99) 3 [([MkCdim 2 (Some [0; 2]) 3], [7; 8])] = Ok [7; 99; 8].
Proof.
  cbv zeta. split; [|repeat split; vm_compute; reflexivity].
  intros i j f g p Hi Hj (cs & Hc & Ec) (cs' & Hc' & Ec'). pose proof (zget_Some_range _ _ _ Hi) as Ri. pose proof (zget_Some_range _ _ _ Hj) as Rj. cbn in Ri, Rj.
  assert (i = 0 \/ i = 1) as [-> | ->] by lia; assert (j = 0 \/ j = 1) as [-> | ->] by lia; auto; exfalso; vm_compute in Hi, Hj; injection Hi as <-; injection Hj as <-; cbn [fst] in *;
    inversion Hc as [|? ? c ? Hcd Hn]; subst; inversion Hn; subst; inversion Hc' as [|? ? c' ? Hcd' Hn']; subst; inversion Hn'; subst; cbn in Hcd, Hcd';
    assert (c = 0) by lia; assert (c' = 0) by lia; subst; vm_compute in Ec, Ec'; congruence.
Qed.
Print Assumptions C22_ocean_refuted.

Example C22_example : let f := ([MkCdim 1 (Some [0]) 3], [7]) in let g := ([MkCdim 2 (Some [2; -5]) 3], [8; 3]) in
  Forall (file_ok 3) [f; g] /\ holds g 2 8 /\ decompress 0 None 3 [f; g] = Ok [7; 0; 8].
Proof.
  cbv zeta. split; [|split; [|vm_compute; reflexivity]].
  - repeat constructor; cbn; try lia; intros; lia.
  - exists [0]. split; [split; [repeat constructor; cbn; lia|reflexivity]|]. split; [reflexivity|]. intros cs' [Hc E]. cbn [fst] in *.
    inversion Hc as [|? ? c ? Hcd Hn]; subst; inversion Hn; subst. cbn in Hcd. assert (c = 0 \/ c = 1) as [-> | ->] by lia; [cbn; lia|vm_compute in E; discriminate].
Qed.
