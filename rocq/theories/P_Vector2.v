(** * Proofs about the regridding of vector fields: the whole run *)
From Coq Require Import Reals Lra Lia.
From Verif Require Import Base Loops Vec Lst M_Interp M_Runoff Spec_Interp P_Interp P_Interp2 M_Vert M_Fregrid P_Fregrid P_Fregrid2 M_Vector Spec_Vector P_Vector.
Local Open Scope R_scope.

Definition turned (m : R) (t t' : vtile) : Prop :=
  v_nx t' = v_nx t /\ v_ny t' = v_ny t
  /\ vec (v_u t') (v_nx t * v_ny t) (fun i => if okb m (at_ (v_u t) i) (at_ (v_v t) i) then east (at_ (r_cos (v_rot t)) i) (at_ (r_sin (v_rot t)) i) (at_ (v_u t) i) (at_ (v_v t) i) else at_ (v_u t) i)
  /\ vec (v_v t') (v_nx t * v_ny t) (fun i => if okb m (at_ (v_u t) i) (at_ (v_v t) i) then north (at_ (r_cos (v_rot t)) i) (at_ (r_sin (v_rot t)) i) (at_ (v_u t) i) (at_ (v_v t) i) else at_ (v_v t) i).

Lemma rotate_in_run m T : Forall wf_vtile T -> exists T', rotate_in m T = Ok T' /\ Forall2 (turned m) T T'.
Proof.
  intros W. unfold rotate_in.
  assert (R1 : forall t, In t T -> exists r, rotate m 1 (v_rot t) (v_nx t * v_ny t) (v_u t) (v_v t) = Ok r /\ turned m t (MkVtile (v_nx t) (v_ny t) (v_rot t) (fst r) (snd r))).
  { intros t Ht. rewrite Forall_forall in W. destruct (W t Ht) as (Nx & Ny & LU & LV & WR).
    destruct (rotate_run m 1 (v_rot t) (v_nx t * v_ny t) (v_u t) (v_v t) (at_ (v_u t)) (at_ (v_v t))) as (u' & v' & E & A & B); auto; [nia|rewrite <- LU; apply vec_at|rewrite <- LV; apply vec_at|].
    exists (u', v'). split; auto. unfold turned. cbn [v_nx v_ny v_u v_v fst snd]. repeat split; auto.
    - exact (proj1 A).
    - intros i Hi. rewrite (proj2 A i Hi). destruct (okb m _ _); auto. f_equal. unfold east. ring.
    - exact (proj1 B).
    - intros i Hi. rewrite (proj2 B i Hi). destruct (okb m _ _); auto. f_equal. unfold north. ring. }
  clear W. assert (G : forall acc, exists T', ofold (fun l t => do r <- rotate m 1 (v_rot t) (v_nx t * v_ny t) (v_u t) (v_v t) ; Ok (l ++ [MkVtile (v_nx t) (v_ny t) (v_rot t) (fst r) (snd r)])) T acc = Ok (acc ++ T') /\ Forall2 (turned m) T T').
  { induction T as [|t T IH]; intros acc; cbn [ofold].
    - exists []. rewrite app_nil_r. auto.
    - destruct (R1 t (or_introl eq_refl)) as (r & E & H). rewrite E. cbn [bind]. destruct (IH (fun t Ht => R1 t (or_intror Ht)) (acc ++ [MkVtile (v_nx t) (v_ny t) (v_rot t) (fst r) (snd r)])) as (T' & E2 & F). exists (MkVtile (v_nx t) (v_ny t) (v_rot t) (fst r) (snd r) :: T'). rewrite E2, <- app_assoc. auto. }
  exact (G []).
Qed.

Section Out.
  Variables (m : R) (T T' : list vtile) (o : vout).
  Hypotheses (WT : Forall wf_vtile T) (SM : Forall (smaller m) T) (FT : Forall2 (turned m) T T') (WO : wf_vout T o).
  Let n := (w_nx o * w_ny o)%Z.
  Let okc c := okb m (in_u T c) (in_v T c).

  Lemma vsrc_in c : In c (w_xgrid o) -> In (vsrc T c) T.
  Proof. intros Hc. destruct WO as (_ & _ & _ & HX). destruct (HX c Hc) as (Ht & _). unfold vsrc. apply nth_In. unfold zlen in Ht. lia. Qed.
  Lemma cell_small c : In c (w_xgrid o) -> okc c = true -> Rabs (in_east T c) < Rabs m /\ Rabs (in_north T c) < Rabs m.
  Proof.
    intros Hc H. apply okb_true in H. destruct H as (A & B). pose proof (vsrc_in c Hc) as Ht. destruct WO as (_ & _ & _ & HX). destruct (HX c Hc) as (_ & Hi & Hj & _).
    rewrite Forall_forall in SM, WT. destruct (WT _ Ht) as (_ & _ & _ & _ & _ & _ & UN & _).
    assert (Hn : (0 <= vfrom T c < v_nx (vsrc T c) * v_ny (vsrc T c))%Z) by (unfold vfrom; nia).
    apply turned_small; [apply UN; auto|]. apply (SM _ Ht); auto.
  Qed.
  Lemma cell_step c u v a : In c (w_xgrid o) -> vcell m T' (w_nx o) (u, v, a) c =
    if okc c then do d <- oget u (vto o c) ; do u <- oset u (vto o c) (d + in_east T c * x_a c) ; do d <- oget v (vto o c) ; do v <- oset v (vto o c) (d + in_north T c * x_a c) ; do d <- oget a (vto o c) ; do a <- oset a (vto o c) (d + x_a c) ; Ok (u, v, a) else Ok (u, v, a).
  Proof.
    intros Hc. destruct (Forall2_at _ no_vtile no_vtile _ _ FT) as (LT & FA). pose proof (cell_small c Hc) as CS.
    destruct WO as (_ & _ & _ & HX). destruct (HX c Hc) as (Ht & Hi & Hj & _). unfold vcell.
    destruct (FA (x_t c) Ht) as (N1 & N2 & VU & VV). fold (vsrc T c) in N1, N2, VU, VV.
    assert (EG : oget T' (x_t c) = Ok (nth (Z.to_nat (x_t c)) T' no_vtile)) by (apply oget_Ok; unfold zget; destruct (Z.ltb_spec (x_t c) 0); [lia|]; apply nth_error_nth'; unfold zlen in *; lia). rewrite EG. cbn [bind].
    rewrite N1. fold (vfrom T c). fold (vto o c).
    assert (Hn : (0 <= vfrom T c < v_nx (vsrc T c) * v_ny (vsrc T c))%Z) by (unfold vfrom; nia).
    rewrite (vec_get _ _ _ _ VU Hn), (vec_get _ _ _ _ VV Hn). cbn [bind]. rewrite both_valid_okb. change (at_ (v_u (vsrc T c)) (vfrom T c)) with (in_u T c). change (at_ (v_v (vsrc T c)) (vfrom T c)) with (in_v T c).
    unfold okc in *. destruct (okb m (in_u T c) (in_v T c)) eqn:EO.
    - fold (in_east T c). fold (in_north T c). rewrite small_okb by (apply CS; reflexivity). reflexivity.
    - rewrite EO. reflexivity.
  Qed.

  Lemma vused_eq k : vused m T o k = filter (fun c => (vto o c =? k)%Z && okc c) (w_xgrid o).
  Proof. reflexivity. Qed.
  Lemma vtile_out_run : exists u v, vtile_out m false T' o = Ok (u, v) /\ zlen u = n /\ zlen v = n
    /\ forall k, (0 <= k < n)%Z ->
       (vused m T o k = [] -> at_ u k = m /\ at_ v k = m)
       /\ (vused m T o k <> [] -> east (at_ (r_cos (w_rot o)) k) (at_ (r_sin (w_rot o)) k) (at_ u k) (at_ v k) = vmean (in_east T) (vused m T o k)
                               /\ north (at_ (r_cos (w_rot o)) k) (at_ (r_sin (w_rot o)) k) (at_ u k) (at_ v k) = vmean (in_north T) (vused m T o k)).
  Proof.
    assert (Hn : (0 <= n)%Z) by (destruct WO as (A & B & _); unfold n; nia).
    assert (VA : vec (alloc n) n (fun _ => 0)) by (apply vec_repeat; auto).
    assert (KR : forall c, In c (w_xgrid o) -> (0 <= vto o c < n)%Z) by (intros c Hc; destruct WO as (_ & _ & _ & HX); destruct (HX c Hc) as (_ & _ & _ & Hi & Hj & _); unfold vto, n; nia).
    unfold vtile_out. fold n.
    destruct (vadd_all (vcell m T' (w_nx o)) okc (vto o) (in_east T) (in_north T) n (w_xgrid o) _ _ _ _ _ _ VA VA VA KR (fun c u v a Hc => cell_step c u v a Hc)) as (u & v & a & -> & VU & VV & VS). cbn [bind].
    destruct (vdivide_run m n a u v _ _ _ Hn VS VU VV) as (u1 & v1 & -> & VU1 & VV1). cbn [bind fst snd].
    destruct (rotate_run m (-1) (w_rot o) n u1 v1 _ _ Hn (proj1 (proj2 (proj2 WO))) VU1 VV1) as (u2 & v2 & -> & VU2 & VV2).
    exists u2, v2. split; auto. split; [exact (proj1 VU2)|]. split; [exact (proj1 VV2)|]. intros k Hk.
    rewrite (vec_at_ _ _ _ _ VU2 Hk), (vec_at_ _ _ _ _ VV2 Hk). cbn beta. rewrite <- !vused_eq.
    destruct WO as (_ & _ & (_ & _ & UN & _) & HX). specialize (UN k Hk). split.
    - intros ->. rewrite !rsum_nil. replace (0 + 0) with 0 by ring.
      assert (E : rlt 0 0 = false) by (destruct (rlt_spec 0 0); auto; lra). rewrite E.
      assert (O : okb m m m = false) by (unfold okb; destruct (Req_EM_T m m); auto; contradiction). rewrite O. auto.
    - intros NE.
      assert (IU : forall c, In c (vused m T o k) -> In c (w_xgrid o) /\ okc c = true) by (intros c Hc; rewrite vused_eq in Hc; apply filter_In in Hc; destruct Hc as (A & B); apply andb_true_iff in B; tauto).
      destruct (vmean_small (in_east T) (vused m T o k) (Rabs m) NE) as (P & SE). { intros c Hc. destruct (IU c Hc) as (A & B). split; [apply (HX c A)|apply cell_small; auto]. }
      destruct (vmean_small (in_north T) (vused m T o k) (Rabs m) NE) as (_ & SN). { intros c Hc. destruct (IU c Hc) as (A & B). split; [apply (HX c A)|apply cell_small; auto]. }
      rewrite !Rplus_0_l. destruct (rlt_spec 0 (rsum x_a (vused m T o k))) as [?|?]; [|lra].
      fold (vmean (in_east T) (vused m T o k)). fold (vmean (in_north T) (vused m T o k)). rewrite small_okb by auto.
      set (E := vmean (in_east T) _). set (N := vmean (in_north T) _). set (c := at_ (r_cos (w_rot o)) k) in *. set (s := at_ (r_sin (w_rot o)) k) in *. unfold east, north. split.
      + transitivity (E * (c ^ 2 + s ^ 2)); [ring|]. rewrite UN. ring.
      + transitivity (N * (c ^ 2 + s ^ 2)); [ring|]. rewrite UN. ring.
  Qed.
End Out.

Definition no_vout : vout := MkVout 0 0 (MkRot [] [] false) None [].
Lemma do_vector_run m T O : Forall wf_vtile T -> Forall (smaller m) T -> Forall (wf_vout T) O ->
  exists outs, do_vector m false T O = Ok outs /\ Forall2 (fun o r => zlen (fst r) = (w_nx o * w_ny o)%Z /\ zlen (snd r) = (w_nx o * w_ny o)%Z
    /\ forall k, (0 <= k < w_nx o * w_ny o)%Z ->
       (vused m T o k = [] -> at_ (fst r) k = m /\ at_ (snd r) k = m)
       /\ (vused m T o k <> [] -> east (at_ (r_cos (w_rot o)) k) (at_ (r_sin (w_rot o)) k) (at_ (fst r) k) (at_ (snd r) k) = vmean (in_east T) (vused m T o k)
                               /\ north (at_ (r_cos (w_rot o)) k) (at_ (r_sin (w_rot o)) k) (at_ (fst r) k) (at_ (snd r) k) = vmean (in_north T) (vused m T o k))) O outs.
Proof.
  intros WT SM WO. unfold do_vector. destruct (rotate_in_run m T WT) as (T' & -> & FT). cbn [bind].
  destruct (tiles_run (vtile_out m false T') O []) as (outs & -> & F).
  { intros o Ho. rewrite Forall_forall in WO. destruct (vtile_out_run m T T' o WT SM FT (WO o Ho)) as (u & v & E & _). exists (u, v). exact E. }
  exists outs. split; auto. rewrite Forall_forall in WO. induction F as [|o r O outs E F IH]; constructor.
  - destruct (vtile_out_run m T T' o WT SM FT (WO o (or_introl eq_refl))) as (u & v & E2 & H). rewrite E in E2. injection E2 as ->. exact H.
  - apply IH. intros; apply WO; now right.
Qed.
