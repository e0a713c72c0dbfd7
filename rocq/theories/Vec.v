(** * One-dimensional arrays described by a function of the index *)
From Verif Require Import Base Loops.

(** [g] has [n] elements and element [i] is [F i]. *)
Definition vec {A} (g : list A) (n : Z) (F : Z -> A) : Prop :=
  zlen g = n /\ forall i, 0 <= i < n -> zget g i = Some (F i).

Lemma vec_ext {A} (g : list A) n F F' : (forall i, 0 <= i < n -> F i = F' i) -> vec g n F -> vec g n F'.
Proof. intros E [L H]. split; auto. intros i Hi. rewrite <- E by auto. auto. Qed.
Lemma vec_get {A} (g : list A) n F i : vec g n F -> 0 <= i < n -> oget g i = Ok (F i).
Proof. intros [L H] Hi. apply oget_Ok. auto. Qed.
Lemma vec_set {A} (g : list A) n F F' a v : vec g n F -> 0 <= a < n ->
  (forall i, 0 <= i < n -> F' i = if i =? a then v else F i) ->
  exists g', oset g a v = Ok g' /\ vec g' n F'.
Proof.
  intros [L H] Ha HF. destruct (zset_Some g a v) as (g' & E); [lia|]. exists g'. split; [now apply oset_Ok|].
  split; [rewrite (zset_len _ _ _ _ E); auto|]. intros i Hi. rewrite HF by auto. destruct (Z.eqb_spec i a) as [->|N].
  - apply (zget_zset_eq _ _ _ _ E).
  - rewrite (zget_zset_ne _ _ _ _ _ E); auto.
Qed.
Lemma vec_repeat {A} (v : A) n : 0 <= n -> vec (repeat v (Z.to_nat n)) n (fun _ => v).
Proof. intros Hn. split; [rewrite zlen_repeat; lia|]. intros i Hi. apply zget_repeat. lia. Qed.
Lemma vec_map {A} (F : Z -> A) n : 0 <= n -> vec (map F (zseq 0 n)) n F.
Proof. intros Hn. split; [rewrite zlen_map, zlen_zseq; lia|]. intros i Hi. rewrite zget_map, zget_zseq by lia. reflexivity. Qed.
Lemma vec_eq {A} (g g' : list A) n F : vec g n F -> vec g' n F -> g = g'.
Proof. intros [L H] [L' H']. apply zget_ext; [congruence|]. intros i Hi. rewrite H, H' by lia. reflexivity. Qed.
Lemma vec_len {A} (g : list A) n F : vec g n F -> 0 <= n.
Proof. intros [L _]. pose proof (zlen_nonneg g). lia. Qed.

(** A loop whose [i]-th step turns [F i] into [F (i+1)]. *)
Lemma ofor_vec {A} (f : list A -> Z -> outcome (list A)) m lo n (F : Z -> Z -> A) g :
  0 <= n -> vec g m (F lo) ->
  (forall i g, lo <= i < lo + n -> vec g m (F i) -> exists g', f g i = Ok g' /\ vec g' m (F (i + 1))) ->
  exists g', ofor lo n f g = Ok g' /\ vec g' m (F (lo + n)).
Proof. intros Hn H0 Hs. destruct (ofor_inv (fun i g => vec g m (F i)) f lo n g) as (g' & E & H); eauto. Qed.

(** A loop that stores [V i] in element [i]. *)
Lemma ofor_fill {A} (f : list A -> Z -> outcome (list A)) m lo n (F0 V : Z -> A) g :
  0 <= n -> 0 <= lo -> lo + n <= m -> vec g m F0 ->
  (forall i g F, lo <= i < lo + n -> vec g m F -> (forall j, lo <= j < i -> F j = V j) -> (forall j, 0 <= j < lo -> F j = F0 j) -> f g i = oset g i (V i)) ->
  exists g', ofor lo n f g = Ok g' /\ vec g' m (fun j => if (lo <=? j) && (j <? lo + n) then V j else F0 j).
Proof.
  intros Hn Hl Hm H0 Hs. destruct (ofor_vec f m lo n (fun i j => if (lo <=? j) && (j <? i) then V j else F0 j) g Hn) as (g' & E & Hg).
  - eapply vec_ext; [|exact H0]. intros i Hi. cbn. destruct (Z.leb_spec lo i), (Z.ltb_spec i lo); cbn; auto; lia.
  - intros i g1 Hi Hv. destruct (vec_set g1 m _ (fun j => if (lo <=? j) && (j <? i + 1) then V j else F0 j) i (V i) Hv) as (g2 & E2 & V2); [lia| |].
    + intros j Hj. destruct (Z.leb_spec lo j), (Z.ltb_spec j (i + 1)), (Z.ltb_spec j i), (Z.eqb_spec j i); cbn; auto; try lia; subst; auto.
    + exists g2. split; auto. rewrite <- E2. eapply Hs; eauto.
      * intros j Hj. cbn. destruct (Z.leb_spec lo j), (Z.ltb_spec j i); cbn; auto; lia.
      * intros j Hj. cbn. destruct (Z.leb_spec lo j), (Z.ltb_spec j i); cbn; auto; lia.
  - exists g'. split; auto.
Qed.
