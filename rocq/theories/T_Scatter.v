(** * C08: combining what mppncscatter wrote gives back the original *)
From Verif Require Import Base Spec_Hyperslab Spec_Combine Spec_CombineSet M_Combine M_Scatter Spec_Scatter P_CombineSet P_ScatterMain T_Combine.

(** C08: scattering a dataset with any layout (and I/O layout) gives as many files
    as the layout has divisions, and the combiner, given these files in any of its
    three ways and with any blocking factor, ends with status 0 and writes every
    record of every variable exactly once, with exactly the original data.
    Partial: the conditions of [scatterable] that exclude the cases refuted below,
    and the name restrictions of [set_ok] (see C09). *)
Theorem C08_scatter_combine_partial : forall (A : Type) (zero : A) o types S (fi : @infile A),
  set_ok S -> scatterable o types S -> whole S fi ->
  exists files, scatter zero o types fi = Ok files /\ zlen files = file_count o
    /\ forall oc fs nargs, o_append oc = false -> supplied oc fs nargs files ->
         exists r, main zero no_write_fails 0 oc fs nargs false = Ok r
           /\ res_code r = 0 /\ res_output r = true /\ restores S fi (res_log r).
Proof.
  intros A zero o types S fi HS HC HW. destruct (scatter_combine zero o types S fi HS HC HW) as (files & E & L & HP & HO).
  exists files. split; auto. split; auto. intros oc fs nargs Ha Hs.
  destruct (divs o types S HC) as (P1 & P2 & Pc & _).
  assert (Hne : files <> []) by (intros ->; rewrite zlen_nil in L; nia).
  rewrite <- L in HP.
  destruct (C09_combine_partial A zero S files oc fs nargs HS Hne HP Ha Hs) as (r & Er & Cr & Or & (l & Hl & HF)).
  exists r. do 3 (split; [auto|]). exists l. split; auto.
  assert (K : forall x, In x (slots S) -> In x (slots S)) by auto. revert K HF. generalize (slots S) at 1 3 4 as sl. clear -HO HW.
  intros sl K HF. induction HF as [|[[vn v] rr] w sl l Hw HF IH]; constructor; [|apply IH; intros; apply K; now right].
  destruct (slots_spec S vn v rr (K _ (or_introl eq_refl))) as [Ev Hr].
  pose proof (HO _ vn v rr w Ev Hr Hw) as HV. destruct Hw as (W1 & W2 & W3 & _). do 3 (split; [auto|]).
  destruct (Forall2_zget _ _ _ _ _ (wh_vars _ _ HW) Ev) as (iv & Ei & _ & _ & H). exists iv. split; auto.
  destruct (H rr Hr) as (vals & Ed & _). rewrite HV. unfold data_of. now rewrite Ei, Ed.
Qed.
Print Assumptions C08_scatter_combine_partial.

(** ** A concrete case: 2 records, 3 x 4 points, a scalar, layout 2 x 2 *)
Definition sx_file : @infile Z :=
  {| in_nfiles := None; in_dims := [und 2; und 3; und 4]; in_rec := 0;
     in_vars := [{| v_dims := [0]; v_coord := 0; v_miss := None; v_data := fun r => Some [100 + r] |};
       {| v_dims := [1]; v_coord := 1; v_miss := None; v_data := fun _ => Some [1;2;3] |};
       {| v_dims := [2]; v_coord := 2; v_miss := None; v_data := fun _ => Some [10;20;30;40] |};
       {| v_dims := []; v_coord := -1; v_miss := None; v_data := fun _ => Some [7] |};
       {| v_dims := [0;1;2]; v_coord := -1; v_miss := Some (-99);
          v_data := fun r => Some (map (fun i => 1000 * r + i) (zseq 0 12)) |}] |}.
Definition sx_set : cset :=
  {| s_rec := 0; s_nrecs := 2; s_full := [2;3;4]; s_dec := [false;true;true];
     s_vars := [{| sv_rec := true; sv_nd := []; sv_coord := 0 |}; {| sv_rec := false; sv_nd := [1]; sv_coord := 1 |};
                {| sv_rec := false; sv_nd := [2]; sv_coord := 2 |}; {| sv_rec := false; sv_nd := []; sv_coord := -1 |};
                {| sv_rec := true; sv_nd := [1;2]; sv_coord := -1 |}] |}.
Definition sx_opt : sopts := {| sx_nx := 2; sx_ny := 2; sx_nxio := 0; sx_nyio := 0 |}.
Definition sx_types : list sct := [NoSc; ScY; ScX].

Lemma sx_type id t : type_of sx_types id = t -> t <> NoSc -> (id = 1 /\ t = ScY) \/ (id = 2 /\ t = ScX).
Proof.
  unfold type_of. intros H N. destruct (zget sx_types id) as [t'|] eqn:E; [|congruence].
  pose proof (zget_Some_range _ _ _ E) as R. cbn in R. assert (id = 0 \/ id = 1 \/ id = 2) as [->|[->| ->]] by lia;
    cbn in E; injection E as <-; subst; auto; congruence.
Qed.

Lemma cons_split {B} (a : B) l l1 v l2 : a :: l = l1 ++ v :: l2 -> (l1 = [] /\ a = v /\ l = l2) \/ exists l1', l1 = a :: l1' /\ l = l1' ++ v :: l2.
Proof. destruct l1 as [|b l1']; cbn; intros H; injection H; intros; subst; eauto. Qed.

Example C08_example : set_ok sx_set /\ scatterable sx_opt sx_types sx_set /\ whole sx_set sx_file
  /\ match scatter 0 sx_opt sx_types sx_file with
     | Ok [f0; f1; f2; f3] => supplied (opt0 1) (args [f0; f1; f2; f3]) 4 [f0; f1; f2; f3]
         /\ map (@v_data Z) (in_vars f3) <> [] /\ data_of f3 4 1 = [1010; 1011]
     | _ => False
     end.
Proof.
  split; [|split; [|split]].
  - constructor; cbn [sx_set s_rec s_nrecs s_full s_dec s_vars]; try lia.
    + right. vm_compute. repeat split; congruence.
    + repeat constructor; lia.
    + reflexivity.
    + intros v id Hv Hid. each_in Hv; each_in Hid; vm_compute; repeat split; congruence.
    + intros v Hv Hd. each_in Hv; cbn; lia.
    + intros v Hv Hr Hc. each_in Hv; cbn in *; try lia; try discriminate; auto.
    + intros v Hv Hr Hc. each_in Hv; cbn in *; try lia; try discriminate; auto.
  - constructor; cbn [sx_opt sx_nx sx_ny sx_nxio sx_nyio]; try lia.
    + reflexivity.
    + intros id Hi. cbn in Hi. assert (id = 0 \/ id = 1 \/ id = 2) as [->|[->| ->]] by lia; reflexivity.
    + intros id Ht. destruct (sx_type id _ Ht) as [[-> ?]|[-> ?]]; try discriminate. vm_compute. split; discriminate.
    + intros id Ht. destruct (sx_type id _ Ht) as [[-> ?]|[-> ?]]; try discriminate. vm_compute. split; discriminate.
    + intros id Ht. destruct (sx_type id _ eq_refl Ht) as [[-> _]|[-> _]].
      * eexists. split; [right; left; reflexivity|]. auto.
      * eexists. split; [right; right; left; reflexivity|]. auto.
    + intros v l1 i l2 j l3 Hv E Ht. each_in Hv; cbn in E.
      * destruct l1; discriminate.
      * destruct l1 as [|? [|]]; try discriminate. cbn in E. injection E as <- E. destruct l2; discriminate.
      * destruct l1 as [|? [|]]; try discriminate. cbn in E. injection E as <- E. destruct l2; discriminate.
      * destruct l1; discriminate.
      * destruct l1 as [|? [|? [|]]]; try discriminate; cbn in E.
        -- injection E as <- E. destruct l2 as [|? [|]]; try discriminate. cbn in E. injection E as <- <-. vm_compute in Ht. discriminate.
        -- injection E as <- <- E. destruct l2; discriminate.
    + intros v Hv. each_in Hv; cbn; lia.
    + intros l1 v l2 _ E Hs. cbn in E.
      repeat match goal with E : _ :: _ = _ ++ _ :: _ |- _ =>
        apply cons_split in E; let p := fresh "p" in destruct E as [(-> & <- & <-)|(p & -> & E)]; try discriminate end.
      * eexists [_; _; _], _, []. cbn. split; [reflexivity|]. split; [reflexivity|]. split; [discriminate|constructor].
      * match goal with E : [] = ?q ++ _ |- _ => destruct q; discriminate end.
  - constructor; try reflexivity.
    + split; [reflexivity|]. intros id rd E. pose proof (zget_Some_range _ _ _ E) as R. cbn in R.
      assert (id = 0 \/ id = 1 \/ id = 2) as [->|[->| ->]] by lia; cbn in E; injection E as <-; auto.
    + repeat constructor; intros r Hr; eexists; split; reflexivity.
  - vm_compute.  split; [|split; [discriminate|reflexivity]]. left. split; [reflexivity|]. intros i fi H. rewrite H. reflexivity.
Qed.

(** ** What the restrictions exclude *)

(** Some variable without record dimension comes back changed although both
    programs report success. *)
Definition changed (o : sopts) (types : list sct) (fi : @infile Z) : Prop :=
  exists files r, scatter 0 o types fi = Ok files
    /\ main 0 no_write_fails 0 (opt0 1) (args files) (zlen files) false = Ok r /\ res_code r = 0
    /\ exists iv w, In iv (in_vars fi) /\ (forall d, In d (v_dims iv) -> d <> in_rec fi) /\ In w (res_log r)
         /\ zget (in_vars fi) (w_var w) = Some iv /\ v_data iv 0 <> Some (w_vals w).

(** A scalar that follows a record variable: the scatterer takes it for a record
    variable and writes an element of another variable into it. *)
Definition sc_file : @infile Z :=
  {| in_nfiles := None; in_dims := [und 2; und 2]; in_rec := 0;
     in_vars := [{| v_dims := [1]; v_coord := 1; v_miss := None; v_data := fun _ => Some [10;20] |};
       {| v_dims := [0;1]; v_coord := -1; v_miss := None; v_data := fun r => Some [1000 * r + 1; 1000 * r + 2] |};
       {| v_dims := []; v_coord := -1; v_miss := None; v_data := fun _ => Some [7] |}] |}.
Definition opt21 : sopts := {| sx_nx := 2; sx_ny := 1; sx_nxio := 0; sx_nyio := 0 |}.
Theorem C08_scalar_refuted : changed opt21 [NoSc; ScX] sc_file.
Proof.
  unfold changed. eexists _, _. split; [vm_compute; reflexivity|]. split; [vm_compute; reflexivity|]. split; [reflexivity|].
  eexists _, _. split; [right; right; left; reflexivity|]. split; [intros d []|]. cbn [res_log]. split; [left; reflexivity|].
  split; [reflexivity|]. vm_compute. discriminate.
Qed.
Print Assumptions C08_scalar_refuted.

(** A variable with two dimensions divided along x: only the diagonal blocks are
    written, the others come back as fill values. *)
Definition sq_file : @infile Z :=
  {| in_nfiles := None; in_dims := [und 2; und 2]; in_rec := -1;
     in_vars := [{| v_dims := [0]; v_coord := 0; v_miss := None; v_data := fun _ => Some [1;2] |};
       {| v_dims := [1]; v_coord := 1; v_miss := None; v_data := fun _ => Some [10;20] |};
       {| v_dims := [0;1]; v_coord := -1; v_miss := None; v_data := fun _ => Some [11;12;21;22] |}] |}.
Theorem C08_same_axis_refuted : changed opt21 [ScX; ScX] sq_file.
Proof.
  unfold changed. eexists _, _. split; [vm_compute; reflexivity|]. split; [vm_compute; reflexivity|]. split; [reflexivity|].
  eexists _, _. split; [right; right; left; reflexivity|]. split; [cbn; lia|]. cbn [res_log]. split; [right; right; left; reflexivity|].
  split; [reflexivity|]. vm_compute. discriminate.
Qed.
Print Assumptions C08_same_axis_refuted.

(** A divided dimension without coordinate variable (the user can name it with -X):
    no domain_decomposition is written and the combined variable is only the first
    piece. *)
Definition nc_file : @infile Z :=
  {| in_nfiles := None; in_dims := [und 2]; in_rec := -1;
     in_vars := [{| v_dims := [0]; v_coord := -1; v_miss := None; v_data := fun _ => Some [1;2] |}] |}.
Theorem C08_no_coordinate_variable_refuted : changed opt21 [ScX] nc_file.
Proof.
  unfold changed. eexists _, _. split; [vm_compute; reflexivity|]. split; [vm_compute; reflexivity|]. split; [reflexivity|].
  eexists _, _. split; [left; reflexivity|]. split; [cbn; lia|]. cbn [res_log]. split; [left; reflexivity|].
  split; [reflexivity|]. vm_compute. discriminate.
Qed.
Print Assumptions C08_no_coordinate_variable_refuted.
