(** * Which neighbours flow into a cell, seen from that cell *)
From Verif Require Import Base Loops M_River Spec_River Tiles P_Halo P_Network.
Open Scope Z_scope.

(** [h] is one of the eight positions around [p] *)
Definition near (p h : cell) : Prop :=
  let '(n, j, i) := p in let '(m, y, x) := h in m = n /\ -1 <= y - j <= 1 /\ -1 <= x - i <= 1 /\ (y <> j \/ x <> i).
Definition seen (op : opcode) (nx ny : Z) (h : cell) (d : Z) : Z := let '(n, jj, ii) := h in seen_dir op nx ny n jj ii d.

Lemma around_add m a v : 1 <= m -> around m (around m a + v) = around m (a + v).
Proof.
  intros Hm. unfold around. f_equal. replace ((a - 1) mod m + 1 + v - 1) with ((a - 1) mod m + v) by ring.
  rewrite Zplus_mod_idemp_l. f_equal. ring.
Qed.
Lemma around_eq m a b v : 1 <= m -> 1 <= a <= m -> 1 <= b <= m -> (around m (a + v) = b <-> around m (b - v) = a).
Proof.
  intros Hm Ha Hb. split; intros E.
  - rewrite <- E. replace (around m (a + v) - v) with (around m (a + v) + - v) by ring. rewrite around_add by auto. replace (a + v + - v) with a by ring. apply around_id; auto.
  - rewrite <- E. replace (b - v) with (b + - v) by ring. rewrite around_add by auto. replace (b + - v + v) with b by ring. apply around_id; auto.
Qed.
Lemma compass_cases d : 0 <= d <= 7 -> -1 <= fst (compass d) <= 1 /\ -1 <= snd (compass d) <= 1 /\ (fst (compass d) <> 0 \/ snd (compass d) <> 0).
Proof.
  intros Hd. assert (V : d = 0 \/ d = 1 \/ d = 2 \/ d = 3 \/ d = 4 \/ d = 5 \/ d = 6 \/ d = 7) by lia.
  destruct V as [->|[->|[->|[->|[->|[->|[->| ->]]]]]]]; cbn; lia.
Qed.
Lemma cell_inv (n j i n' j' i' : Z) : (n, j, i) = (n', j', i') -> n = n' /\ j = j' /\ i = i'.
Proof. intros E. injection E. auto. Qed.
Lemma cell_eq3 (n j i n' j' i' : Z) : n = n' -> j = j' -> i = i' -> (n, j, i) = (n', j', i').
Proof. congruence. Qed.

(** ** One tile *)
Section Flat.
  Context (op : opcode) (nt nx ny : Z) (Hop : op_ok op nt nx ny) (Hc : cubic op = false).
  Lemma flat_wrap n j i : wrap op nx ny (n, j, i) =
    match x_cyclic op, y_cyclic op with
    | true, true => (n, around ny j, around nx i)
    | true, false => if (1 <=? j) && (j <=? ny) then (n, j, around nx i) else (n, j, i)
    | false, true => if (1 <=? i) && (i <=? nx) then (n, around ny j, i) else (n, j, i)
    | false, false => (n, j, i)
    end.
  Proof. unfold wrap. rewrite Hc. reflexivity. Qed.
  (** q + v stands for p iff p - v stands for q *)
  Lemma flat_recip n j i m y x vj vi : own nt nx ny (n, j, i) -> own nt nx ny (m, y, x) ->
    (wrap op nx ny (m, y + vj, x + vi) = (n, j, i) <-> wrap op nx ny (n, j - vj, i - vi) = (m, y, x)).
  Proof.
    intros (Hn & Hj & Hi) (Hm & Hy & Hx). rewrite !flat_wrap. destruct Hop as (Hnx & Hny & _). destruct (x_cyclic op), (y_cyclic op).
    - pose proof (around_eq ny y j vj Hny Hy Hj). pose proof (around_eq nx x i vi Hnx Hx Hi).
      split; intros E; apply cell_inv in E; destruct E as (-> & E1 & E2); apply cell_eq3; auto; tauto.
    - pose proof (around_eq nx x i vi Hnx Hx Hi). split; intros E.
      + destruct (Z.leb_spec 1 (y + vj)); destruct (Z.leb_spec (y + vj) ny); cbn [andb] in E; apply cell_inv in E; destruct E as (-> & E1 & E2); try lia.
        rewrite (proj2 (Z.leb_le 1 (j - vj))), (proj2 (Z.leb_le (j - vj) ny)) by lia. cbn [andb]. apply cell_eq3; auto; [lia|tauto].
      + destruct (Z.leb_spec 1 (j - vj)); destruct (Z.leb_spec (j - vj) ny); cbn [andb] in E; apply cell_inv in E; destruct E as (-> & E1 & E2); try lia.
        rewrite (proj2 (Z.leb_le 1 (y + vj))), (proj2 (Z.leb_le (y + vj) ny)) by lia. cbn [andb]. apply cell_eq3; auto; [lia|tauto].
    - pose proof (around_eq ny y j vj Hny Hy Hj). split; intros E.
      + destruct (Z.leb_spec 1 (x + vi)); destruct (Z.leb_spec (x + vi) nx); cbn [andb] in E; apply cell_inv in E; destruct E as (-> & E1 & E2); try lia.
        rewrite (proj2 (Z.leb_le 1 (i - vi))), (proj2 (Z.leb_le (i - vi) nx)) by lia. cbn [andb]. apply cell_eq3; auto; [tauto|lia].
      + destruct (Z.leb_spec 1 (i - vi)); destruct (Z.leb_spec (i - vi) nx); cbn [andb] in E; apply cell_inv in E; destruct E as (-> & E1 & E2); try lia.
        rewrite (proj2 (Z.leb_le 1 (x + vi))), (proj2 (Z.leb_le (x + vi) nx)) by lia. cbn [andb]. apply cell_eq3; auto; [tauto|lia].
    - split; intros E; apply cell_inv in E; destruct E as (-> & E1 & E2); apply cell_eq3; auto; lia.
  Qed.
End Flat.

(** ** The cube *)
Section Cub.
  Context (op : opcode) (nx : Z) (Hc : cubic op = true) (Hnx : 1 <= nx).
  Lemma frame_kind n j i : in_frame 6 nx nx (n, j, i) -> own 6 nx nx (n, j, i) \/
    (i = 0 /\ 1 <= j <= nx) \/ (i = nx + 1 /\ 1 <= j <= nx) \/ (j = 0 /\ 1 <= i <= nx) \/ (j = nx + 1 /\ 1 <= i <= nx) \/
    ((j < 1 \/ nx < j) /\ (i < 1 \/ nx < i)).
  Proof. unfold in_frame, own. lia. Qed.
  Lemma six n : 0 <= n < 6 -> n = 0 \/ n = 1 \/ n = 2 \/ n = 3 \/ n = 4 \/ n = 5.
  Proof. lia. Qed.
  Lemma eight d : 0 <= d <= 7 -> d = 0 \/ d = 1 \/ d = 2 \/ d = 3 \/ d = 4 \/ d = 5 \/ d = 6 \/ d = 7.
  Proof. lia. Qed.
  Lemma seen_own h d : own 6 nx nx h -> seen op nx nx h d = d.
  Proof.
    destruct h as [[n j] i]. intros (_ & Hj & Hi). unfold seen, seen_dir. rewrite Hc.
    rewrite (proj2 (Z.eqb_neq i 0)), (proj2 (Z.eqb_neq i (nx + 1))), (proj2 (Z.eqb_neq j 0)), (proj2 (Z.eqb_neq j (nx + 1))) by lia. reflexivity.
  Qed.
  Lemma seen_w n j d : seen op nx nx (n, j, 0) d = if n mod 2 =? 0 then (d + 2) mod 8 else d.
  Proof. unfold seen, seen_dir. rewrite Hc. reflexivity. Qed.
  Lemma seen_e n j d : seen op nx nx (n, j, nx + 1) d = if n mod 2 =? 1 then (d + 2) mod 8 else d.
  Proof. unfold seen, seen_dir. rewrite Hc, (proj2 (Z.eqb_neq (nx + 1) 0)), Z.eqb_refl by lia. reflexivity. Qed.
  Lemma seen_s n i d : 1 <= i <= nx -> seen op nx nx (n, 0, i) d = if n mod 2 =? 1 then (d + 6) mod 8 else d.
  Proof. intros H. unfold seen, seen_dir. rewrite Hc, (proj2 (Z.eqb_neq i 0)), (proj2 (Z.eqb_neq i (nx + 1))) by lia. reflexivity. Qed.
  Lemma seen_n n i d : 1 <= i <= nx -> seen op nx nx (n, nx + 1, i) d = if n mod 2 =? 0 then (d + 6) mod 8 else d.
  Proof. intros H. unfold seen, seen_dir. rewrite Hc, (proj2 (Z.eqb_neq i 0)), (proj2 (Z.eqb_neq i (nx + 1))), (proj2 (Z.eqb_neq (nx + 1) 0)), Z.eqb_refl by lia. reflexivity. Qed.

  Lemma cube_inj h h' : in_frame 6 nx nx h -> in_frame 6 nx nx h' -> fst (fst h) = fst (fst h') -> own 6 nx nx (wrap op nx nx h) -> wrap op nx nx h = wrap op nx nx h' -> h = h'.
  Proof.
    destruct h as [[n j] i], h' as [[n' j'] i']. cbn [fst]. intros Hf Hf' <- Hw E. assert (Hw' : own 6 nx nx (wrap op nx nx (n, j', i'))) by (rewrite <- E; auto).
    destruct (frame_kind n j i Hf) as [K|[[-> K]|[[-> K]|[[-> K]|[[-> K]|[K1 K2]]]]]];
    destruct (frame_kind n j' i' Hf') as [K'|[[-> K']|[[-> K']|[[-> K']|[[-> K']|[K1' K2']]]]]];
    try (rewrite (wrap_corner nx op Hc) in Hw by auto; unfold own in Hw; lia);
    try (rewrite (wrap_corner nx op Hc) in Hw' by auto; unfold own in Hw'; lia); clear Hw Hw';
    try rewrite (wrap_own op 6 nx nx _ K) in E; try rewrite (wrap_own op 6 nx nx _ K') in E;
    try rewrite !(wrap_w nx op Hc) in E by auto; try rewrite !(wrap_e nx op Hc) in E by auto;
    try rewrite !(wrap_s nx op Hc) in E by auto; try rewrite !(wrap_n nx op Hc) in E by auto;
    destruct Hf as (Hn & _); destruct (six n Hn) as [->|[->|[->|[->|[->| ->]]]]]; cbn in E; apply cell_inv in E; destruct E as (E0 & E1 & E2); try lia; apply cell_eq3; lia.
  Qed.

  Lemma cube_back p h d : own 6 nx nx p -> near p h -> in_frame 6 nx nx h -> own 6 nx nx (wrap op nx nx h) -> 0 <= d <= 7 ->
    step h (seen op nx nx h d) = p -> wrap op nx nx (step (wrap op nx nx h) d) = p.
  Proof.
    destruct p as [[n j] i], h as [[n' y] x]. intros Hp Hnr Hf Hw Hd E. assert (n' = n) by (destruct Hnr; auto). subst n'.
    destruct (frame_kind n y x Hf) as [K|[[-> K]|[[-> K]|[[-> K]|[[-> K]|[K1 K2]]]]]].
    - rewrite (seen_own _ _ K) in E. rewrite (wrap_own op 6 nx nx _ K), E. apply (wrap_own op 6 nx nx _ Hp).
    - rewrite seen_w in E. rewrite (wrap_w nx op Hc) by auto. destruct Hp as (Hn & Hj & Hi).
      destruct (six n Hn) as [->|[->|[->|[->|[->| ->]]]]]; cbn [Z.modulo Z.div_eucl] in E |- *; cbn -[wrap] in E |- *;
      destruct (eight d Hd) as [->|[->|[->|[->|[->|[->|[->| ->]]]]]]]; cbn -[wrap] in E |- *; apply cell_inv in E; destruct E as (_ & E1 & E2); try lia;
      first [rewrite (wrap_n nx op Hc) by lia | rewrite (wrap_e nx op Hc) by lia]; cbn; apply cell_eq3; lia.
    - rewrite seen_e in E. rewrite (wrap_e nx op Hc) by auto. destruct Hp as (Hn & Hj & Hi).
      destruct (six n Hn) as [->|[->|[->|[->|[->| ->]]]]]; cbn -[wrap] in E |- *;
      destruct (eight d Hd) as [->|[->|[->|[->|[->|[->|[->| ->]]]]]]]; cbn -[wrap] in E |- *; apply cell_inv in E; destruct E as (_ & E1 & E2); try lia;
      first [rewrite (wrap_w nx op Hc) by lia | rewrite (wrap_s nx op Hc) by lia]; cbn; apply cell_eq3; lia.
    - rewrite seen_s in E by auto. rewrite (wrap_s nx op Hc) by auto. destruct Hp as (Hn & Hj & Hi).
      destruct (six n Hn) as [->|[->|[->|[->|[->| ->]]]]]; cbn -[wrap] in E |- *;
      destruct (eight d Hd) as [->|[->|[->|[->|[->|[->|[->| ->]]]]]]]; cbn -[wrap] in E |- *; apply cell_inv in E; destruct E as (_ & E1 & E2); try lia;
      first [rewrite (wrap_n nx op Hc) by lia | rewrite (wrap_e nx op Hc) by lia]; cbn; apply cell_eq3; lia.
    - rewrite seen_n in E by auto. rewrite (wrap_n nx op Hc) by auto. destruct Hp as (Hn & Hj & Hi).
      destruct (six n Hn) as [->|[->|[->|[->|[->| ->]]]]]; cbn -[wrap] in E |- *;
      destruct (eight d Hd) as [->|[->|[->|[->|[->|[->|[->| ->]]]]]]]; cbn -[wrap] in E |- *; apply cell_inv in E; destruct E as (_ & E1 & E2); try lia;
      first [rewrite (wrap_w nx op Hc) by lia | rewrite (wrap_s nx op Hc) by lia]; cbn; apply cell_eq3; lia.
    - rewrite (wrap_corner nx op Hc) in Hw by auto. unfold own in Hw. lia.
  Qed.

  Lemma cube_forth p q d : own 6 nx nx p -> own 6 nx nx q -> 0 <= d <= 7 -> wrap op nx nx (step q d) = p ->
    exists h, near p h /\ wrap op nx nx h = q /\ step h (seen op nx nx h d) = p.
  Proof.
    destruct q as [[m y] x]. intros Hp Hq Hd E. pose proof (step_frame 6 nx nx _ d Hq Hd) as Hf.
    destruct (own_dec 6 nx nx (step (m, y, x) d)) as [K|K].
    { rewrite (wrap_own op 6 nx nx _ K) in E. subst p. exists (m, y, x). pose proof (compass_cases d Hd) as Hv. split; [cbn; lia|].
      split; [apply (wrap_own op 6 nx nx _ Hq)|]. rewrite (seen_own _ _ Hq). auto. }
    pose proof Hq as (Hm & Hy & Hx). subst p. unfold step in *. set (vj := fst (compass d)) in *. set (vi := snd (compass d)) in *.
    destruct (frame_kind _ _ _ Hf) as [K'|[[Ei Kj]|[[Ei Kj]|[[Ej Ki]|[[Ej Ki]|[K1 K2]]]]]]; [easy| | | | |].
    5:{ rewrite (wrap_corner nx op Hc) in Hp by auto. unfold own in Hp. lia. }
    - assert (x = 1) by (unfold vi in Ei; pose proof (compass_cases d Hd); lia). subst x. rewrite Ei in *. rewrite (wrap_w nx op Hc) by lia.
      destruct (six m Hm) as [->|[->|[->|[->|[->| ->]]]]];
      [exists (4, nx + 1, nx + 1 - y); rewrite (wrap_n nx op Hc), (seen_n) by lia
      |exists (0, y, nx + 1); rewrite (wrap_e nx op Hc), (seen_e) by lia
      |exists (0, nx + 1, nx + 1 - y); rewrite (wrap_n nx op Hc), (seen_n) by lia
      |exists (2, y, nx + 1); rewrite (wrap_e nx op Hc), (seen_e) by lia
      |exists (2, nx + 1, nx + 1 - y); rewrite (wrap_n nx op Hc), (seen_n) by lia
      |exists (4, y, nx + 1); rewrite (wrap_e nx op Hc), (seen_e) by lia];
      (split; [cbn; pose proof (compass_cases d Hd); lia|]); (split; [cbn; apply cell_eq3; lia|]);
      destruct (eight d Hd) as [->|[->|[->|[->|[->|[->|[->| ->]]]]]]]; cbn in Ei |- *; try lia; apply cell_eq3; lia.
    - assert (x = nx) by (unfold vi in Ei; pose proof (compass_cases d Hd); lia). subst x. rewrite Ei in *. rewrite (wrap_e nx op Hc) by lia.
      destruct (six m Hm) as [->|[->|[->|[->|[->| ->]]]]];
      [exists (1, y, 0); rewrite (wrap_w nx op Hc), (seen_w) by lia
      |exists (3, 0, nx + 1 - y); rewrite (wrap_s nx op Hc), (seen_s) by lia
      |exists (3, y, 0); rewrite (wrap_w nx op Hc), (seen_w) by lia
      |exists (5, 0, nx + 1 - y); rewrite (wrap_s nx op Hc), (seen_s) by lia
      |exists (5, y, 0); rewrite (wrap_w nx op Hc), (seen_w) by lia
      |exists (1, 0, nx + 1 - y); rewrite (wrap_s nx op Hc), (seen_s) by lia];
      (split; [cbn; pose proof (compass_cases d Hd); lia|]); (split; [cbn; apply cell_eq3; lia|]);
      destruct (eight d Hd) as [->|[->|[->|[->|[->|[->|[->| ->]]]]]]]; cbn in Ei |- *; try lia; apply cell_eq3; lia.
    - assert (y = 1) by (unfold vj in Ej; pose proof (compass_cases d Hd); lia). subst y. rewrite Ej in *. rewrite (wrap_s nx op Hc) by lia.
      destruct (six m Hm) as [->|[->|[->|[->|[->| ->]]]]];
      [exists (5, nx + 1, x); rewrite (wrap_n nx op Hc), (seen_n) by lia
      |exists (5, nx + 1 - x, nx + 1); rewrite (wrap_e nx op Hc), (seen_e) by lia
      |exists (1, nx + 1, x); rewrite (wrap_n nx op Hc), (seen_n) by lia
      |exists (1, nx + 1 - x, nx + 1); rewrite (wrap_e nx op Hc), (seen_e) by lia
      |exists (3, nx + 1, x); rewrite (wrap_n nx op Hc), (seen_n) by lia
      |exists (3, nx + 1 - x, nx + 1); rewrite (wrap_e nx op Hc), (seen_e) by lia];
      (split; [cbn; pose proof (compass_cases d Hd); lia|]); (split; [cbn; apply cell_eq3; lia|]);
      destruct (eight d Hd) as [->|[->|[->|[->|[->|[->|[->| ->]]]]]]]; cbn in Ej |- *; try lia; apply cell_eq3; lia.
    - assert (y = nx) by (unfold vj in Ej; pose proof (compass_cases d Hd); lia). subst y. rewrite Ej in *. rewrite (wrap_n nx op Hc) by lia.
      destruct (six m Hm) as [->|[->|[->|[->|[->| ->]]]]];
      [exists (2, nx + 1 - x, 0); rewrite (wrap_w nx op Hc), (seen_w) by lia
      |exists (2, 0, x); rewrite (wrap_s nx op Hc), (seen_s) by lia
      |exists (4, nx + 1 - x, 0); rewrite (wrap_w nx op Hc), (seen_w) by lia
      |exists (4, 0, x); rewrite (wrap_s nx op Hc), (seen_s) by lia
      |exists (0, nx + 1 - x, 0); rewrite (wrap_w nx op Hc), (seen_w) by lia
      |exists (0, 0, x); rewrite (wrap_s nx op Hc), (seen_s) by lia];
      (split; [cbn; pose proof (compass_cases d Hd); lia|]); (split; [cbn; apply cell_eq3; lia|]);
      destruct (eight d Hd) as [->|[->|[->|[->|[->|[->|[->| ->]]]]]]]; cbn in Ej |- *; try lia; apply cell_eq3; lia.
  Qed.
End Cub.

(** ** All boundary conditions *)
Lemma near_frame nt nx ny p h : own nt nx ny p -> near p h -> in_frame nt nx ny h.
Proof. destruct p as [[n j] i], h as [[m y] x]. unfold own, near, in_frame. lia. Qed.
Lemma seen_flat op nx ny h d : cubic op = false -> seen op nx ny h d = d.
Proof. intros Hc. destruct h as [[n j] i]. unfold seen, seen_dir. rewrite Hc. reflexivity. Qed.
Lemma seen_range op nx ny h d : 0 <= d <= 7 -> 0 <= seen op nx ny h d <= 7.
Proof.
  intros Hd. destruct h as [[n j] i]. unfold seen, seen_dir. pose proof (Z.mod_pos_bound (d + 2) 8). pose proof (Z.mod_pos_bound (d + 6) 8).
  destruct (cubic op), (i =? 0), (i =? nx + 1), (j =? 0), (j =? ny + 1), (n mod 2 =? 0), (n mod 2 =? 1); lia.
Qed.
Section Recip.
  Context (op : opcode) (nt nx ny : Z) (Hop : op_ok op nt nx ny).
  Lemma cube_shape : cubic op = true -> nt = 6 /\ nx = ny.
  Proof. intros H. destruct Hop as (_ & _ & _ & Hc & _). destruct (Hc H) as (-> & -> & _). auto. Qed.
  Lemma recip_back p h d : own nt nx ny p -> near p h -> own nt nx ny (wrap op nx ny h) -> 0 <= d <= 7 ->
    step h (seen op nx ny h d) = p -> dest op nx ny (wrap op nx ny h) d = p.
  Proof.
    intros Hp Hn Hw Hd E. pose proof (near_frame _ _ _ _ _ Hp Hn) as Hf. unfold dest. destruct (cubic op) eqn:Hc.
    - destruct (cube_shape Hc) as [-> <-]. apply cube_back; auto. apply Hop.
    - rewrite (seen_flat op nx ny h d Hc) in E. destruct p as [[n j] i]. destruct (wrap op nx ny h) as [[m y] x] eqn:Eq. destruct h as [[n' jh] ih]. apply cell_inv in E. destruct E as (-> & E1 & E2).
      apply (flat_recip op nt nx ny Hop Hc n j i m y x); auto. rewrite <- Eq. f_equal. apply cell_eq3; lia.
  Qed.
  Lemma recip_forth p q d : own nt nx ny p -> own nt nx ny q -> 0 <= d <= 7 -> dest op nx ny q d = p ->
    exists h, near p h /\ wrap op nx ny h = q /\ step h (seen op nx ny h d) = p.
  Proof.
    intros Hp Hq Hd E. unfold dest in E. destruct (cubic op) eqn:Hc.
    - destruct (cube_shape Hc) as [-> <-]. apply cube_forth; auto. apply Hop.
    - destruct p as [[n j] i], q as [[m y] x]. pose proof (compass_cases d Hd) as Hv. exists (n, j - fst (compass d), i - snd (compass d)). split; [cbn; lia|].
      split; [apply (flat_recip op nt nx ny Hop Hc n j i m y x); auto|]. rewrite (seen_flat op nx ny _ d Hc). apply cell_eq3; lia.
  Qed.
  Lemma recip_inj p h h' d : own nt nx ny p -> near p h -> near p h' -> own nt nx ny (wrap op nx ny h) -> wrap op nx ny h = wrap op nx ny h' ->
    step h (seen op nx ny h d) = p -> step h' (seen op nx ny h' d) = p -> h = h'.
  Proof.
    intros Hp Hn Hn' Hw Ew E E'. pose proof (near_frame _ _ _ _ _ Hp Hn) as Hf. pose proof (near_frame _ _ _ _ _ Hp Hn') as Hf'. destruct (cubic op) eqn:Hc.
    - destruct (cube_shape Hc) as [-> <-]. apply (cube_inj op nx Hc); auto.
      destruct p as [[n j] i], h as [[m y] x], h' as [[m' y'] x']. cbn. destruct Hn, Hn'. congruence.
    - rewrite (seen_flat op nx ny h d Hc) in E. rewrite (seen_flat op nx ny h' d Hc) in E'. rewrite <- E' in E.
      destruct h as [[m y] x], h' as [[m' y'] x']. apply cell_inv in E. destruct E as (-> & E1 & E2). apply cell_eq3; lia.
  Qed.
End Recip.
