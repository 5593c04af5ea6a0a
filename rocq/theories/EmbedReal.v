(** * embedding_backward over the reals *)
From Coq Require Import Reals Lra Permutation.
From Verif Require Import Base Spec Geometry Traits TraitsProofs Runtime Ops RealOps TensorSem ElemGeneric OneOut
  KernelsElem ElemOps Axis AccRuns Loops SliceOps SliceGeo SliceProofs SliceReduce Sequence KeepRuns GemmRuns RSum LossOps LossProofs EmbedRuns.
Local Open Scope Z_scope.

Lemma fold_plus {X} (f : X -> R) l v : fold_left (fun a x => (a + f x)%R) l v = (v + Rsuml l f)%R.
Proof.
  revert v. induction l as [|x l IH]; intros v; cbn [fold_left Rsuml fold_right]; [lra|].
  rewrite IH. unfold Rsuml. lra.
Qed.

Lemma Rsum_mul m n f : 0 <= m -> 0 <= n -> Rsum n (fun j => Rsum m (fun i => f (i + m * j))) = Rsum (m * n) f.
Proof.
  intros Hm Hn. unfold Rsum at 3. rewrite zrange_mul by assumption. rewrite Rsuml_flat. unfold Rsum.
  apply Rsuml_ext. intros j _. rewrite Rsuml_map. reflexivity.
Qed.

(** What one task adds to cell [o] of its vocabulary tile. *)
Definition eb_sum (m n k ks kz : Z) (index : list Z) (embed : list R) (o : Z) : R :=
  Rsum (m * n) (fun p => if zn index p =? o / kz
    then zn embed (cz [m; n] 0 p + m * (ks + o mod kz + k * cz [m; n] 1 p)) else 0%R).

Lemma eb_cell_R m n k ks kz index (embed : list R) o old : 0 <= m -> 0 <= n ->
  eb_cell m n k ks kz index embed o old = (old + eb_sum m n k ks kz index embed o)%R.
Proof.
  intros Hm Hn. unfold eb_sum. rewrite <- Rsum_mul by assumption. unfold eb_cell, Rsum at 1. rewrite <- fold_plus.
  apply fold_left_ext. intros v j Hj. apply zrange_In in Hj. unfold Rsum. rewrite <- fold_plus.
  apply fold_left_ext. intros w i Hi. apply zrange_In in Hi. destruct (cz2 m n i j Hi Hj) as (-> & -> & _).
  destruct (_ =? _); cbn [o_add Rops]; [reflexivity|lra].
Qed.

Section R.
Variables (index vocab embed : tensor) (axis : Z).
Hypothesis (HI : wft index) (HV : wft vocab) (HE : wft embed).
Hypothesis HM : emb_match index vocab embed axis.
Let HS : slice_match embed index axis := proj1 HM.
Notation eb := (zn (t_base embed) axis).
Notation vb := (zn (t_base vocab) 0).
Notation vs := (zn (t_shape vocab) 0).

Theorem embedding_backward_R (s : store R) : disj index vocab -> disj embed vocab ->
  stored KI s index -> stored KF s vocab -> stored KF s embed ->
  (forall idx, inb (t_shape index) idx -> 0 <= ielem s index idx < em_V vocab) ->
  runs_keep [index] (embedding_backward_async index embed vocab axis false) s (fun s' =>
    (forall c v, inb (t_shape vocab) [c; v] ->
       elem s' vocab [c; v] = (elem s vocab [c; v] + Rsuml (all_idx (t_shape index)) (fun idx =>
         if ielem s index idx =? v then elem s embed (ins axis c idx) else 0))%R) /\
    frame [vocab] s s').
Proof.
  intros D1 D2 S1 S2 S3 Hix.
  eapply keep_weaken; [apply (embedding_backward_runs index vocab embed axis HI HV HE HM s D1 D2 S1 S2 S3 Hix)|].
  intros s' _ [H1 H2]. split; [|assumption]. intros c v Hcv. rewrite H1 by assumption. clear H1 H2 s'.
  destruct (em_pos index vocab embed axis HV HE HM) as (P1 & P2 & P3 & P4 & P5).
  pose proof HM as (_ & L2 & Evs & _). destruct (list2 _ L2) as (v0 & v1 & Esh).
  assert (Hc : 0 <= c < vs /\ 0 <= v < zn (t_shape vocab) 1).
  { rewrite Esh in Hcv |- *. inversion Hcv as [|? ? ? ? Q1 Q2]; subst. inversion Q2; subst. split; assumption. }
  destruct Hc as [Hc Hv]. destruct (Z.lt_ge_cases v (em_V vocab)) as [Hv'|Hv'].
  - destruct (em_velem index vocab embed axis HV HE HM c v Hc (conj (proj1 Hv) Hv')) as (_ & Et & Eo & Hr).
    destruct (eb_hits index vocab embed axis HI HV HE HM c v Hc (conj (proj1 Hv) Hv')) as (Hj & Hp & Hall). cbv zeta in *.
    set (j := c / eb) in *. set (t := c / vb - j * (eb / vb)) in *.
    assert (Epos : forall i, 0 <= i < ntiles embed -> 0 < em_m embed axis i /\ 0 < em_n embed axis i).
    { intros i Hi. destruct (em_sizes index vocab embed axis HI HE HM i Hi) as (M1 & _ & M3 & _). auto. }
    set (X := fun x : Z * Z => eb_sum (em_m embed axis (fst x)) (em_n embed axis (fst x)) (em_k embed axis (fst x)) (snd x * vb)
      (em_kz vocab (eb_out vocab embed axis x)) (il (s (th index (em_a index embed axis (fst x))))) (fl (s (th embed (fst x)))) (eoff vocab [c; v])).
    erewrite (fold_left_ext _ (fun a x => (a + X x)%R)).
    2:{ intros a x Hx. apply filter_In in Hx as [Hx _]. apply (eb_xs_In vocab embed axis) in Hx as [Hx _]. destruct (Epos _ Hx).
        unfold eb_term. rewrite eb_cell_R by lia. reflexivity. }
    rewrite fold_plus. f_equal. rewrite (Rsuml_perm _ _ _ Hp). rewrite Rsuml_map.
    rewrite <- (Rsum_by_tiles index) by assumption. apply Rsuml_ext. intros a Ha. apply zrange_In in Ha.
    destruct (Hall a Ha) as (Hi & Ea & Ej & Eout & Ht & Hl & Emod). set (i := sg_out embed index axis (a, j)) in *.
    unfold X. cbn [fst snd]. rewrite Eout, Ea. destruct (em_sizes index vocab embed axis HI HE HM i Hi) as (M1 & M2 & M3 & T1 & T2). rewrite Ea in T1.
    unfold eb_sum. rewrite <- T1. apply Rsum_ext. intros p Hp'. destruct (eidx_spec index a p HI Ha Hp') as (I1 & I2 & I3).
    assert (Hkz : 0 < em_kz vocab (c / vb)). { pose proof (em_range index vocab embed axis HI HV HE HM i t Hi Ht) as (_ & _ & Q & _).
      change (em_start vocab embed axis i + t) with (eb_out vocab embed axis (i, t)) in Q. rewrite Eout in Q. assumption. }
    assert (Hcm : 0 <= c mod vb < em_kz vocab (c / vb)).
    { pose proof (Z.mod_pos_bound c vb P2). pose proof (Z.div_mod c vb). unfold em_kz. lia. }
    rewrite Eo. replace ((em_kz vocab (c / vb) * v + c mod vb) / em_kz vocab (c / vb)) with v.
    2:{ apply Z.div_unique with (c mod vb); lia. }
    replace ((em_kz vocab (c / vb) * v + c mod vb) mod em_kz vocab (c / vb)) with (c mod vb).
    2:{ apply Z.mod_unique with v; lia. }
    unfold ielem. rewrite I2, I3. destruct (_ =? v); [|reflexivity]. rewrite Emod.
    assert (Hj' : etile index (eidx index a p) = a) by assumption.
    pose proof (sg_up embed index axis HE HI HS (eidx index a p) j (c mod eb) I1 Hj) as U. cbv zeta in U. rewrite I2 in U. fold i in U.
    destruct U as (U1 & U2 & U3); [exact Hl|].
    assert (Ec : c = j * eb + c mod eb) by (unfold j; rewrite (Z.mul_comm _ eb); apply Z.div_mod; lia).
    rewrite <- Ec in U1, U2, U3. unfold elem. rewrite U2, U3, I3. reflexivity.
  - rewrite filter_none.
    2:{ intros x Hx. apply (eb_xs_In vocab embed axis) in Hx as [Hx1 Hx2]. apply Z.eqb_neq. intros E.
        pose proof (em_range index vocab embed axis HI HV HE HM _ _ Hx1 Hx2) as (Q & _).
        unfold eb_out in E. rewrite E in Q. clear E. unfold etile, em_rows in Q. unfold em_V in Hv'.
        pose proof (wf_len vocab HV) as LV. rewrite L2 in LV. destruct (list2 _ LV) as (b0 & b1 & Eb).
        rewrite Esh, Eb in *. change (zn [?a; ?b] 1) with b in *. change (zn [?a; ?b] 0) with a in *.
        assert (1 <= v / b1) by (apply Z.div_le_lower_bound; lia).
        unfold tile_of, gridZ in Q; cbn [map2 off] in Q. change (zn [?a; ?b] 0) with a in *.
        assert (0 <= c / b0) by (apply Z.div_pos; lia). 
        nia. }
    cbn [fold_left]. rewrite Rsuml_0; [lra|]. intros idx Hi. apply all_idx_In in Hi; [|apply wf_ps; assumption].
    specialize (Hix idx Hi). destruct (Z.eqb_spec (ielem s index idx) v); [lia|reflexivity].
Qed.
End R.
