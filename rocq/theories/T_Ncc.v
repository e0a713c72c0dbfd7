(** * Properties C20 and C21: combine-ncc and scatter-ncc *)
From Verif Require Import Base M_Ncc Spec_Ncc P_Ncc P_Ncc2 P_Ncc3.
From Coq Require Import Permutation Sorting.Sorted.

(** C20: for every set of files the ranking the program computes is the stable sorting
    permutation of the non-negative indices, and every compressed variable is reordered
    by that same ranking. *)
Theorem C20_ranking : forall idxs, exists r, ranking (concat idxs) r /\
  forall A (datas : list (list A)), map (@length A) datas = map (@length Z) idxs ->
  exists out, combine_slice idxs datas = Ok out /\ zlen out = zlen r /\
  forall k q, zget r k = Some q -> zget out k = zget (concat datas) q.
Proof. intros idxs. destruct (combine_ranking idxs) as (r & H1 & _ & H2). exists r. auto. Qed.
Print Assumptions C20_ranking.

(** The combined index is in non-decreasing order, consists of exactly the
    non-negative indices of all inputs, and each value stays attached to its index. *)
Theorem C20_combined : forall A idxs (datas : list (list A)), map (@length A) datas = map (@length Z) idxs ->
  exists index out, combine_slice idxs idxs = Ok index /\ combine_slice idxs datas = Ok out
  /\ StronglySorted Z.le index
  /\ Permutation index (filter (fun v => 0 <=? v) (concat idxs))
  /\ Permutation (combine index out) (filter (fun p => 0 <=? fst p) (combine (concat idxs) (concat datas))).
Proof.
  assert (G : forall v, (0 <=? v) = (v >=? 0)) by (intros v; rewrite Z.geb_leb; auto).
  assert (Main : forall A idxs (datas : list (list A)), map (@length A) datas = map (@length Z) idxs -> exists index out, combine_slice idxs idxs = Ok index /\ combine_slice idxs datas = Ok out
     /\ StronglySorted Z.le index /\ Permutation (combine index out) (filter (fun p => 0 <=? fst p) (combine (concat idxs) (concat datas)))).
  { intros A idxs datas HL. destruct (combine_pairs idxs datas HL) as (o & out & E1 & E2 & L & S & P). exists o, out. split; auto. split; auto. split; auto. rewrite (filter_ext _ (fun p => fst p >=? 0)); auto. }
  intros A idxs datas HL. destruct (Main A idxs datas HL) as (o & out & E1 & E2 & S & P). exists o, out. split; auto. split; auto. split; auto. split; auto.
  destruct (Main Z idxs idxs eq_refl) as (o1 & o2 & F1 & F2 & _ & P2). rewrite E1 in F1, F2. injection F1 as <-. injection F2 as <-.
  assert (D : forall l : list Z, map fst (combine l l) = l) by (induction l; cbn; congruence).
  assert (D2 : forall l : list Z, map fst (filter (fun p => 0 <=? fst p) (combine l l)) = filter (fun v => 0 <=? v) l) by (induction l as [|a l IH]; cbn; auto; destruct (0 <=? a); cbn; congruence).
  apply (Permutation_map fst) in P2. rewrite D, D2 in P2. exact P2.
Qed.
Print Assumptions C20_combined.

Example C20_example : combine_slice [[5; 1; -7; 9]; []; [-7]; [3; 1; 4]] [[50; 10; 0; 90]; []; [1]; [30; 11; 40]] = Ok [10; 11; 30; 40; 50; 90]
  /\ combine_slice [[5; 1; -7; 9]; []; [-7]; [3; 1; 4]] [[5; 1; -7; 9]; []; [-7]; [3; 1; 4]] = Ok [1; 1; 3; 4; 5; 9].
Proof. split; vm_compute; reflexivity. Qed.

(** C21: scattering a compressed variable over an I/O layout that divides the grid and
    combining the files gives the same index and the same data; [levels] is the
    remaining extent (tiles) of the compressed dimension. *)
Theorem C21_scatter_combine : forall A y levels idx (data : list A) zero fill fillidx,
  1 <= ly_px y -> 1 <= ly_py y -> 1 <= ly_nlon y -> 1 <= ly_nlat y -> 1 <= levels ->
  (ly_px y | ly_nlon y) -> (ly_py y | ly_nlat y) ->
  idx <> [] -> StronglySorted Z.lt idx -> (forall v, In v idx -> 0 <= v < ly_nlon y * ly_nlat y * levels) ->
  zlen data = zlen idx -> fillidx < 0 ->
  exists idxs datas,
    scatter_slice y (ly_nlon y * ly_nlat y * levels) idx idx 0 fillidx = Ok idxs
    /\ scatter_slice y (ly_nlon y * ly_nlat y * levels) idx data zero fill = Ok datas
    /\ combine_slice idxs idxs = Ok idx /\ combine_slice idxs datas = Ok data.
Proof.
  intros A y nt idx data zero fill fillidx H1 H2 H3 H4 H5 [nl Hnl] [mt Hmt] H6 H7 H8 H9 H10. destruct y as [nlon nlat px py]. cbn [ly_nlon ly_nlat ly_px ly_py] in *. subst nlon nlat.
  rewrite (Z.mul_comm nl px), (Z.mul_comm mt py) in *. apply round_trip; auto; try nia.
  destruct idx as [|a l]; [contradiction|]. rewrite zlen_cons. pose proof (zlen_nonneg l). lia.
Qed.
Print Assumptions C21_scatter_combine.

Definition ex_y : layout := MkLayout 4 2 2 2.
Definition ex_idx : list Z := [0; 4; 7; 13; 15].
Example C21_files : scatter_slice ex_y 16 ex_idx ex_idx 0 (-9) = Ok [[0]; [-9]; [4; 13]; [7; 15]]
  /\ scatter_slice ex_y 16 ex_idx [10; 14; 17; 23; 25] 0 99 = Ok [[10]; [99]; [14; 23]; [17; 25]].
Proof. split; vm_compute; reflexivity. Qed.
Example C21_hypotheses : (ly_px ex_y | ly_nlon ex_y) /\ (ly_py ex_y | ly_nlat ex_y) /\ StronglySorted Z.lt ex_idx /\ forall v, In v ex_idx -> 0 <= v < ly_nlon ex_y * ly_nlat ex_y * 2.
Proof.
  split; [exists 2; reflexivity|]. split; [exists 1; reflexivity|]. split; [repeat constructor|]. intros v Hv. cbn in *. lia.
Qed.
