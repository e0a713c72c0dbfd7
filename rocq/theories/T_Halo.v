(** * C47: halo updates *)
From Verif Require Import Base M_River Spec_River Tiles P_Halo.
Open Scope Z_scope.

(** The update succeeds, leaves the tile itself alone, and puts into every halo cell the old
    value of the cell it stands for. *)
Theorem C47_halo_partial {A} nt nx ny op (d : list (list A)) F : op_ok op nt nx ny -> haloed nt nx ny d F ->
  exists d' F', update_halo nt d nx ny op = Ok d' /\ haloed nt nx ny d' F' /\
    (forall c, own nt nx ny c -> F' c = F c) /\
    (forall c, in_frame nt nx ny c -> F' c = F (wrap op nx ny c)).
Proof.
  intros Ho H. destruct (update_halo_run nt nx ny op d F Ho H) as (d' & E & H'). exists d', (fun c => F (wrap op nx ny c)).
  split; auto. split; auto. split; auto. intros c Hc. now rewrite (wrap_own op nt nx ny c Hc).
Qed.

(** In coordinates, for one cyclic tile: x-cyclic for all sizes, both for square tiles. *)
Theorem C47_cyclic_partial {A} nx ny op (d : list (list A)) F : op_ok op 1 nx ny -> cubic op = false -> haloed 1 nx ny d F ->
  exists d' F', update_halo 1 d nx ny op = Ok d' /\ haloed 1 nx ny d' F' /\
    (forall j i, 1 <= j <= ny -> 1 <= i <= nx -> F' (0, j, i) = F (0, j, i)) /\
    (x_cyclic op = true -> forall j, 1 <= j <= ny -> F' (0, j, 0) = F (0, j, nx) /\ F' (0, j, nx + 1) = F (0, j, 1)) /\
    (y_cyclic op = true -> forall i, 1 <= i <= nx -> F' (0, 0, i) = F (0, ny, i) /\ F' (0, ny + 1, i) = F (0, 1, i)) /\
    (x_cyclic op = true -> y_cyclic op = true ->
      F' (0, 0, 0) = F (0, ny, nx) /\ F' (0, 0, nx + 1) = F (0, ny, 1) /\
      F' (0, ny + 1, nx + 1) = F (0, 1, 1) /\ F' (0, ny + 1, 0) = F (0, 1, nx)) /\
    (x_cyclic op = false -> y_cyclic op = false -> d' = d).
Proof.
  intros Ho Hc H. destruct (update_halo_run 1 nx ny op d F Ho H) as (d' & E & H'). exists d', (fun c => F (wrap op nx ny c)).
  destruct Ho as (Hx & Hy & _). split; auto. split; auto.
  split. { intros j i Hj Hi. now rewrite (wrap_own op 1 nx ny (0, j, i)) by (repeat split; lia). }
  split. { intros X j Hj. unfold wrap. rewrite Hc, X, (proj2 (Z.leb_le 1 j)), (proj2 (Z.leb_le j ny)), around_0, around_S by lia.
    rewrite around_id by lia. destruct (y_cyclic op); auto. }
  split. { intros Y i Hi. unfold wrap. rewrite Hc, Y, (proj2 (Z.leb_le 1 i)), (proj2 (Z.leb_le i nx)), around_0, around_S by lia.
    rewrite around_id by lia. destruct (x_cyclic op); auto. }
  split. { intros X Y. unfold wrap. rewrite Hc, X, Y, !around_0, !around_S by lia. auto. }
  intros X Y. unfold update_halo in E. rewrite X, Y, Hc in E. cbn in E. congruence.
Qed.

(** On the cube: two cells that share an edge of their tiles.  Stepping out of a tile lands
    on a cell of another tile, and stepping back from there returns to the start. *)
Definition side_step (nx : Z) (c h : cell) : Prop :=
  let '(n, j, i) := c in let '(m, y, x) := h in n = m /\
  ((i = 1 /\ x = 0 /\ y = j) \/ (i = nx /\ x = nx + 1 /\ y = j) \/ (j = 1 /\ y = 0 /\ x = i) \/ (j = nx /\ y = nx + 1 /\ x = i)).
Theorem C47_cube_edges nx op c h : cubic op = true -> 1 <= nx -> own 6 nx nx c -> side_step nx c h ->
  own 6 nx nx (wrap op nx nx h) /\ fst (fst (wrap op nx nx h)) <> fst (fst c) /\
  exists h', side_step nx (wrap op nx nx h) h' /\ wrap op nx nx h' = c.
Proof.
  destruct c as [[n j] i], h as [[m y] x]. intros Hop Hx (Hn & Hj & Hi) (<- & Hs).
  assert (N : n = 0 \/ n = 1 \/ n = 2 \/ n = 3 \/ n = 4 \/ n = 5) by lia.
  destruct Hs as [(-> & -> & ->)|[(-> & -> & ->)|[(-> & -> & ->)|(-> & -> & ->)]]].
  - rewrite (wrap_w nx op Hop n j Hj). destruct N as [->|[->|[->|[->|[->| ->]]]]]; cbn;
      (split; [lia|]; split; [lia|]).
    1,3,5: eexists (_, nx + 1, nx + 1 - j); split; [split; [reflexivity|lia]|]; rewrite (wrap_n nx op Hop) by lia; cbn; repeat (f_equal; try lia).
    all: eexists (_, j, nx + 1); split; [split; [reflexivity|lia]|]; rewrite (wrap_e nx op Hop) by lia; cbn; repeat (f_equal; try lia).
  - rewrite (wrap_e nx op Hop n j Hj). destruct N as [->|[->|[->|[->|[->| ->]]]]]; cbn;
      (split; [lia|]; split; [lia|]).
    1,3,5: eexists (_, j, 0); split; [split; [reflexivity|lia]|]; rewrite (wrap_w nx op Hop) by lia; cbn; repeat (f_equal; try lia).
    all: eexists (_, 0, nx + 1 - j); split; [split; [reflexivity|lia]|]; rewrite (wrap_s nx op Hop) by lia; cbn; repeat (f_equal; try lia).
  - rewrite (wrap_s nx op Hop n i Hi). destruct N as [->|[->|[->|[->|[->| ->]]]]]; cbn;
      (split; [lia|]; split; [lia|]).
    1,3,5: eexists (_, nx + 1, i); split; [split; [reflexivity|lia]|]; rewrite (wrap_n nx op Hop) by lia; cbn; repeat (f_equal; try lia).
    all: eexists (_, nx + 1 - i, nx + 1); split; [split; [reflexivity|lia]|]; rewrite (wrap_e nx op Hop) by lia; cbn; repeat (f_equal; try lia).
  - rewrite (wrap_n nx op Hop n i Hi). destruct N as [->|[->|[->|[->|[->| ->]]]]]; cbn;
      (split; [lia|]; split; [lia|]).
    1,3,5: eexists (_, nx + 1 - i, 0); split; [split; [reflexivity|lia]|]; rewrite (wrap_w nx op Hop) by lia; cbn; repeat (f_equal; try lia).
    all: eexists (_, 0, i); split; [split; [reflexivity|lia]|]; rewrite (wrap_s nx op Hop) by lia; cbn; repeat (f_equal; try lia).
Qed.

(** A y-cyclic tile that is not square: the loop over columns runs to ny.  With more columns
    than rows the last columns' halo cells keep their old values; with fewer, memory after
    the tile is touched. *)
Definition y_only := {| x_cyclic := false; y_cyclic := true; cubic := false |}.
Theorem C47_y_cyclic_refuted :
  (exists (F : cell -> Z) d d' F', haloed 1 2 1 d F /\ update_halo 1 d 2 1 y_only = Ok d' /\ haloed 1 2 1 d' F' /\ F' (0, 0, 2) <> F (0, 1, 2)) /\
  (exists d F, @haloed Z 1 1 4 d F /\ update_halo 1 d 1 4 y_only = UB).
Proof.
  split.
  - exists (fun c => let '(_, j, i) := c in j * 4 + i), [zseq 0 12], [[0; 5; 2; 3; 4; 5; 6; 7; 8; 5; 10; 11]],
      (fun c => let '(_, j, i) := c in if (i =? 1) then 5 else j * 4 + i).
    assert (G : forall (t : list Z) F, zlen t = 12 -> forallb (fun j => forallb (fun i => match zget t (j * 4 + i) with Some v => v =? F (0, j, i) | None => false end) (zseq 0 4)) (zseq 0 3) = true -> haloed 1 2 1 [t] F).
    { intros t F L Hb. split; [reflexivity|]. intros n Hn. exists t. replace n with 0 by lia. split; [reflexivity|]. split; [auto|]. intros j i Hj Hi.
      rewrite forallb_forall in Hb. specialize (Hb j (proj2 (In_zseq j 0 3) ltac:(lia))). rewrite forallb_forall in Hb.
      specialize (Hb i (proj2 (In_zseq i 0 4) ltac:(lia))). change (2 + 2) with 4. destruct (zget t (j * 4 + i)); [|discriminate]. f_equal. lia. }
    split; [apply G; reflexivity|]. split; [reflexivity|]. split; [apply G; reflexivity|]. discriminate.
  - exists [repeat 0 18], (fun _ => 0). split; [|reflexivity]. split; [reflexivity|]. intros n Hn. exists (repeat 0 18). replace n with 0 by lia.
    split; [reflexivity|]. split; [reflexivity|]. intros j i Hj Hi. apply zget_repeat. lia.
Qed.

(** Hypotheses met: a 3 x 2 x-cyclic tile and the 6 tiles of a cube *)
Definition x_only := {| x_cyclic := true; y_cyclic := false; cubic := false |}.
Definition cube_op := {| x_cyclic := false; y_cyclic := false; cubic := true |}.
Example C47_example : op_ok x_only 1 3 2 /\ op_ok cube_op 6 4 4 /\
  update_halo 1 [zseq 0 20] 3 2 x_only = Ok [[0;1;2;3;4; 8;6;7;8;6; 13;11;12;13;11; 15;16;17;18;19]].
Proof. repeat split; try (cbn; intros; lia); try discriminate. Qed.
Print Assumptions C47_halo_partial.
Print Assumptions C47_cyclic_partial.
Print Assumptions C47_cube_edges.
Print Assumptions C47_y_cyclic_refuted.
