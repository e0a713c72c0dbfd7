(** * Two-dimensional fields stored row by row in a list *)
From Verif Require Import Base Loops.

(** [g] holds the field [F] on 0 <= x < w, 0 <= y < h. *)
Definition fields {A} (g : list A) (w h : Z) (F : Z -> Z -> A) : Prop :=
  zlen g = w * h /\ forall x y, 0 <= x < w -> 0 <= y < h -> zget g (y * w + x) = Some (F x y).

Lemma fields_ext {A} (g : list A) w h F F' : (forall x y, 0 <= x < w -> 0 <= y < h -> F x y = F' x y) -> fields g w h F -> fields g w h F'.
Proof. intros E [L H]. split; auto. intros x y Hx Hy. rewrite <- E by auto. auto. Qed.

Lemma fields_get {A} (g : list A) w h F a b : fields g w h F -> 0 <= a < w -> 0 <= b < h -> oget g (b * w + a) = Ok (F a b).
Proof. intros [L H] Ha Hb. apply oget_Ok. auto. Qed.

Lemma fields_set {A} (g : list A) w h F F' a b v : fields g w h F -> 0 <= a < w -> 0 <= b < h ->
  (forall x y, 0 <= x < w -> 0 <= y < h -> F' x y = if (x =? a) && (y =? b) then v else F x y) ->
  exists g', oset g (b * w + a) v = Ok g' /\ fields g' w h F'.
Proof.
  intros [L H] Ha Hb HF. pose proof (rowmajor_range h w b a Hb Ha) as R. destruct (zset_Some g (b * w + a) v) as (g' & E); [lia|].
  exists g'. split; [now apply oset_Ok|]. split; [rewrite (zset_len _ _ _ _ E); auto|]. intros x y Hx Hy. rewrite HF by auto.
  destruct ((x =? a) && (y =? b)) eqn:Eq.
  - apply andb_prop in Eq. destruct Eq as [E1 E2]. apply Z.eqb_eq in E1, E2. subst. apply (zget_zset_eq _ _ _ _ E).
  - rewrite (zget_zset_ne _ _ _ _ _ E); auto. intros Ec. apply rowmajor_inj in Ec; auto. destruct Ec as [-> ->]. rewrite !Z.eqb_refl in Eq. discriminate.
Qed.

Lemma fields_repeat {A} (v : A) w h n : 0 <= w -> 0 <= h -> n = w * h -> fields (repeat v (Z.to_nat n)) w h (fun _ _ => v).
Proof. intros Hw Hh ->. split; [rewrite zlen_repeat; nia|]. intros x y Hx Hy. apply zget_repeat. pose proof (rowmajor_range h w y x Hy Hx). nia. Qed.

(** A loop whose [i]-th step turns the field [F i] into [F (i+1)]. *)
Lemma ofor_fields {A} (f : list A -> Z -> outcome (list A)) w h lo n (F : Z -> Z -> Z -> A) g :
  0 <= n -> fields g w h (F lo) ->
  (forall i g, lo <= i < lo + n -> fields g w h (F i) -> exists g', f g i = Ok g' /\ fields g' w h (F (i + 1))) ->
  exists g', ofor lo n f g = Ok g' /\ fields g' w h (F (lo + n)).
Proof. intros Hn H0 Hs. destruct (ofor_inv (fun i g => fields g w h (F i)) f lo n g) as (g' & E & H); eauto. Qed.

(** Two nested loops that store [V i j] in element (i,j). *)
Lemma fill2 {A} (w h : Z) (f : list A -> Z -> Z -> outcome (list A)) (V : Z -> Z -> A) (g : list A) :
  0 <= w -> 0 <= h -> zlen g = w * h ->
  (forall g x y, 0 <= x < w -> 0 <= y < h -> f g y x = oset g (y * w + x) (V x y)) ->
  exists g', ofor 0 h (fun g j => ofor 0 w (fun g i => f g j i) g) g = Ok g' /\ fields g' w h V.
Proof.
  intros Hw Hh HL Hf.
  set (P := fun (j : Z) (g : list A) => zlen g = w * h /\ forall x y, 0 <= x < w -> 0 <= y < j -> zget g (y * w + x) = Some (V x y)).
  destruct (ofor_inv P (fun g j => ofor 0 w (fun g i => f g j i) g) 0 h g Hh) as (g' & E & L & H).
  - split; auto. intros; lia.
  - intros j g1 Hj [L1 H1].
    set (Q := fun (i : Z) (g : list A) => zlen g = w * h /\ (forall x y, 0 <= x < w -> 0 <= y < j -> zget g (y * w + x) = Some (V x y)) /\
       forall x, 0 <= x < i -> zget g (j * w + x) = Some (V x j)).
    destruct (ofor_inv Q (fun g i => f g j i) 0 w g1 Hw) as (g2 & E2 & L2 & H2 & H3).
    + split; auto. split; auto. intros; lia.
    + intros i g2 Hi (L2 & H2 & H3). rewrite Hf by lia.
      destruct (zset_Some g2 (j * w + i) (V i j)) as (g3 & E3); [rewrite L2; nia|].
      exists g3. split; [now apply oset_Ok|]. split; [rewrite (zset_len _ _ _ _ E3); auto|]. split.
      * intros x y Hx Hy. rewrite (zget_zset_ne _ _ _ _ _ E3); auto. nia.
      * intros x Hx. destruct (Z.eq_dec x i) as [->|]; [apply (zget_zset_eq _ _ _ _ E3)|].
        rewrite (zget_zset_ne _ _ _ _ _ E3) by lia. apply H3. lia.
    + exists g2. split; auto. split; auto. intros x y Hx Hy. destruct (Z.eq_dec y j) as [->|]; [apply H3; lia|apply H2; lia].
  - exists g'. split; auto. split; auto.
Qed.
