(** * The Frobenius loss (frob.py) computes half the squared distance and its gradient *)
From Coq Require Import Reals Lra FunctionalExtensionality.
From Coquelicot Require Import Coquelicot.
From Verif Require Import Base Spec Geometry Traits TraitsProofs Runtime Ops RealOps TensorSem OneOut ElemOps Formulas Axis SliceReduce Sequence XReals NdRuns RSum MatOps Nrm2Proofs GemmRuns PropMat PropElemR PropElem PropSlice XTriples HasRuns TapeMath VjpMath Tape PyLayers PyLinear PySimple Backprop.
Local Close Scope Z_scope.
Local Open Scope R_scope.

Lemma x_f_hypot (a b c d : R) : f_hypot (Fin a) (Fin b) (Fin c) (Fin d) = Fin (f_hypot a b c d).
Proof.
  unfold f_hypot. rewrite !x_eqb0. change (@o_eqb R _ ?x o_zero) with (Reqb x 0). destruct (Reqb a 0), (Reqb c 0); reflexivity.
Qed.
(** ** nrm2 on finite data, with beta = 0 *)
Lemma x_ssq s src f i : wft src -> (0 <= i < ntiles src)%Z -> xval s src (fin f) ->
  ssq s src i = Fin (Rsum (tsz src i) (fun o => f (eidx src i o) * f (eidx src i o))).
Proof.
  intros W Hi V. unfold ssq. pose proof (tsz_pos src i W Hi).
  rewrite <- (dot_R (tsz src i) (fun o => f (eidx src i o) * f (eidx src i o))) by lia.
  change (o_zero (T := XR)) with (Fin 0). apply fold_hom. intros a o Ho. apply zrange_In in Ho.
  destruct (eidx_spec src i o W Hi Ho) as (I1 & _). rewrite V by assumption. reflexivity.
Qed.
Lemma x_nrm2 src dst tmp s f : wf_tensor src -> wf_tensor dst -> wf_tensor tmp ->
  nrm2_match src dst tmp -> disj src dst -> disj src tmp -> disj tmp dst ->
  stored KF s src -> stored KF s dst -> stored KF s tmp -> xval s src (fin f) ->
  runs (nrm2_async (Fin 1) src (Fin 0) dst tmp) s (fun s' =>
    xval s' dst (fin (fun _ => sqrt (Rsuml (all_idx (t_shape src)) (fun idx => f idx * f idx)))) /\ frame [dst; tmp] s s').
Proof.
  intros Hs Hd Ht Hm D1 D2 D3 S1 S2 S3 V. apply wf_wft in Hs, Hd, Ht.
  eapply runs_weaken; [apply nrm2_runs; assumption|]. intros s' _ (H1 & _ & H3). split; [|assumption].
  intros idx Hi. destruct Hm as (Es & _). rewrite Es in Hi. inversion Hi; subst. rewrite H1. unfold fin.
  rewrite <- (Rsum_by_tiles src (fun idx => f idx * f idx)) by assumption.
  assert (Hn : (0 < ntiles src)%Z) by (unfold ntiles; apply prodZ_pos, wf_pg; assumption).
  set (S := fun i => Rsum (tsz src i) (fun o => f (eidx src i o) * f (eidx src i o))).
  assert (Sq : forall i, (0 <= i < ntiles src)%Z -> 0 <= S i) by (intros i _; apply Rsuml_nonneg; intros o _; apply Rle_0_sqr).
  transitivity (fold_left (fun v i => f_hypot (Fin 1) (Fin (sqrt (S i))) (bj (Fin 0) i) v) (zrange (ntiles src)) (Fin 0)).
  - replace (ntiles src) with (1 + (ntiles src - 1))%Z by ring. rewrite zrange_add by lia. rewrite !fold_left_app.
    change (zrange 1) with [0%Z]. cbn [fold_left].
    assert (E0 : f_hypot (Fin 1) (o_sqrt (ssq s src 0)) (bj (Fin 0) 0) (elem s dst []) = f_hypot (Fin 1) (Fin (sqrt (S 0%Z))) (bj (Fin 0) 0) (Fin 0)).
    { rewrite (x_ssq s src f) by (first [assumption|lia]). rewrite x_sqrt_fin by (apply Sq; lia).
      unfold f_hypot, bj. cbn [Z.eqb]. rewrite !x_eqb0. destruct (Reqb 0 0) eqn:E; [reflexivity|]. apply Reqb_false in E. congruence. }
    rewrite E0. apply fold_left_ext. intros v i Hi'. apply in_map_iff in Hi' as (i' & <- & Hi'). apply zrange_In in Hi'.
    rewrite (x_ssq s src f) by (first [assumption|lia]). rewrite x_sqrt_fin by (apply Sq; lia). reflexivity.
  - transitivity (Fin (fold_left (fun v i => f_hypot 1 (sqrt (S i)) (bj 0 i) v) (zrange (ntiles src)) 0)).
    + apply fold_hom. intros v i _. unfold bj. destruct (i =? 0)%Z; apply x_f_hypot.
    + f_equal. transitivity (sqrt (0 * 0 * (0 * 0) + 1 * 1 * Rsum (ntiles src) S)); [|f_equal; ring].
      rewrite <- (fold_norm 1 0 S (ntiles src) 0 Hn Sq). apply fold_left_ext. intros v i Hi'. apply zrange_In in Hi'.
      rewrite f_hypot_R. f_equal. f_equal. f_equal. apply sqrt_sqrt, Sq, Hi'.
Qed.

Section Frob.
Context {E : env} (req : nat -> bool).

(** two tensors written at once *)
Lemma has_write2 M s s' y1 y2 v : has M s -> U y1 -> U y2 -> y1 <> y2 -> tinv s s' -> frame [A y1; A y2] s s' ->
  (forall f, v = Some f -> xval s' (A y1) f) -> has (upd y1 v (upd y2 None M)) s'.
Proof.
  intros [HK H] H1 H2 Hn Ht Hf Hv.
  (* an intermediate store in which only y1 has been written *)
  set (s1 := fun h => if in_dec Z.eq_dec h (tile_handles (A y1)) then s' h else s h).
  assert (T1 : tinv s s1). { intros h. unfold s1. destruct (in_dec _ _ _); [apply Ht|reflexivity]. }
  assert (F1 : frame [A y1] s s1).
  { intros h Hh. unfold s1. destruct (in_dec _ _ _) as [Hc|]; [|reflexivity]. exfalso. exact (Hh (A y1) (or_introl eq_refl) Hc). }
  assert (F2 : frame [A y2] s1 s').
  { intros h Hh. unfold s1. destruct (in_dec _ _ _) as [|Hc]; [reflexivity|]. apply Hf. intros t [<-|[<-|[]]]; [assumption|].
    apply Hh. left; reflexivity. }
  assert (T2 : tinv s1 s') by (intros h; rewrite (T1 h); apply Ht).
  assert (K1 : K s1) by (exact (UK y1 s s1 H1 T1 F1 HK)).
  split; [exact (UK y2 s1 s' H2 T2 F2 K1)|]. intros x Hx. destruct (H x Hx) as [Sx Vx].
  split; [apply (tinv_stored s s' KF); assumption|]. intros f. unfold upd.
  destruct (gvar_dec x y1) as [->|N1]; [apply Hv|]. destruct (gvar_dec x y2) as [->|N2]; [discriminate|].
  intros Hm idx Hi. rewrite <- (Vx f Hm) by assumption. apply (frame_elem [A y1; A y2]); [apply wf_wft, UW; assumption|assumption| |assumption].
  intros t [<-|[<-|[]]]; apply UD; assumption.
Qed.
Lemma h_nrm2 M s x y1 y2 f f' : has M s -> U x -> U y1 -> U y2 -> x <> y1 -> x <> y2 -> y1 <> y2 ->
  nrm2_match (A x) (A y1) (A y2) -> M x = Some (fin f) ->
  (forall idx, inb (t_shape (A y1)) idx -> sqrt (Rsuml (all_idx (t_shape (A x))) (fun i => f i * f i)) = f' idx) ->
  runs_nd (nrm2_async (Fin 1) (A x) (Fin 0) (A y1) (A y2)) s (has (upd y1 (Some (fin f')) (upd y2 None M))).
Proof.
  intros HM Ux U1 U2 N1 N2 N3 Hm Mx Hg. apply runs_runs_nd.
  eapply runs_weaken; [apply (x_nrm2 (A x) (A y1) (A y2) s f); try assumption;
    first [apply UW; assumption|apply UD; try assumption; congruence|eapply has_st; eassumption|eapply has_val; eassumption]|].
  intros s' Ht [H1 H2]. apply (has_write2 M s s'); try assumption. intros g Eg. inversion Eg; subst. intros idx Hi. rewrite H1 by assumption.
  unfold fin. rewrite (Hg idx Hi). reflexivity.
Qed.

(** ** The loss: x = node o; y, val, val_sqrt, tmp are temporaries 1, 0, 2, 3 of [lid] *)
Definition frob_L (sh : list Z) (tgt v : arr) : R := / 2 * Rsuml (all_idx sh) (fun idx => (v idx - tgt idx) * (v idx - tgt idx)).
Definition frob_dL (tgt v : arr) : arr := fun idx => v idx - tgt idx.

Record frob_ok (o lid : nat) : Prop := {
  fr_o : node_ok req o;
  fr_req : req o = true;
  fr_U : forall i, (i < 4)%nat -> U (Tmp lid i);
  fr_y : same_tiling (A (Val o)) (A (Tmp lid 1));
  fr_val : t_shape (A (Tmp lid 0)) = [];
  fr_nrm : nrm2_match (A (Val o)) (A (Tmp lid 2)) (A (Tmp lid 3))
}.

Lemma frob_gradient sh tgt : Forall (fun d => (0 < d)%Z) sh -> gradient_of sh (fun _ => True) (frob_L sh tgt) (frob_dL tgt).
Proof.
  intros Hp c c' t0 _ Hc. unfold frob_L, dot, frob_dL.
  evar_last; [apply (is_derive_scal (fun t => Rsuml (all_idx sh) (fun idx => (c t idx - tgt idx) * (c t idx - tgt idx))) t0 (/2)); apply (is_derive_Rsuml (all_idx sh) (fun idx t => (c t idx - tgt idx) * (c t idx - tgt idx)) (fun idx => 2 * ((c t0 idx - tgt idx) * c' idx))); intros idx Hi; apply all_idx_In in Hi; [|assumption]|].
  - pose proof (Hc idx Hi) as Hd. evar_last; [apply (is_derive_mult (fun t => c t idx - tgt idx) (fun t => c t idx - tgt idx))|].
    + apply (is_derive_minus (K := R_AbsRing) (V := R_NormedModule)); [exact Hd|apply (is_derive_const (K := R_AbsRing) (V := R_NormedModule))].
    + apply (is_derive_minus (K := R_AbsRing) (V := R_NormedModule)); [exact Hd|apply (is_derive_const (K := R_AbsRing) (V := R_NormedModule))].
    + intros; apply Rmult_comm.
    + cbn. unfold minus, plus, opp, zero, mult; cbn. ring.
  - cbn. rewrite <- Rsuml_scal. apply Rsuml_ext. intros. field.
Qed.

Theorem frob_good ids o lid (M0 : smap) tgt : frob_ok o lid -> ~ In lid ids -> M0 (Tmp lid 1) = Some (fin tgt) ->
  loss_good req runs_nd ids o lid M0 (fun _ => True) (frob_L (vshape o) tgt) (frob_dL tgt)
    (frob_calc (node req o) (A (Tmp lid 1)) (A (Tmp lid 0)) (A (Tmp lid 2)) (A (Tmp lid 3))).
Proof.
  intros [On Or OU Oy Ov Om] Hid HT v M G s Hs HM Hv _. destruct On as [Uo Hg]. destruct (Hg Or) as [Ug Sg].
  assert (U0 : U (Tmp lid 0)) by (apply OU; lia). assert (U1 : U (Tmp lid 1)) by (apply OU; lia).
  assert (U2 : U (Tmp lid 2)) by (apply OU; lia). assert (U3 : U (Tmp lid 3)) by (apply OU; lia).
  assert (Eg : t_shape (A (Grad o)) = vshape o) by apply Sg.
  assert (Nm : nrm2_match (A (Grad o)) (A (Tmp lid 2)) (A (Tmp lid 3))).
  { destruct Om as (O1 & O2 & O3). split; [assumption|]. split; [|assumption]. rewrite O2. destruct Sg as [-> ->]. reflexivity. }
  assert (S20 : same_tiling (A (Tmp lid 2)) (A (Tmp lid 0))).
  { destruct Om as (O1 & _). split; [congruence|]. pose proof (wf_len' _ (wf_wft _ (UW _ U2))) as L2. pose proof (wf_len' _ (wf_wft _ (UW _ U0))) as L0.
    rewrite O1 in L2. rewrite Ov in L0. destruct (t_base (A (Tmp lid 2))), (t_base (A (Tmp lid 0))); try discriminate. reflexivity. }
  set (d := frob_dL tgt v). set (q := sqrt (Rsuml (all_idx (vshape o)) (fun i => d i * d i))).
  unfold frob_calc. cbn [m_val m_grad node].
  eapply py_cons; [apply (h_copy (ov req G M) s (Val o) (Grad o) v v); try assumption; try discriminate; try reflexivity; apply same_sym; assumption|].
  intros s1 H1.
  eapply py_cons; [change (@minus1 XR _) with (Fin (-(1)));
    apply (h_axpy (-(1)) _ s1 (Tmp lid 1) (Grad o) tgt v d H1); try assumption; try discriminate|].
  { apply (same_trans _ (A (Val o))); [apply same_sym; assumption|apply same_sym; assumption]. }
  { rewrite upd_ne by discriminate. cbn [ov]. rewrite HM by assumption. assumption. }
  { apply upd_eq. }
  { intros idx _. unfold d, frob_dL. ring. }
  intros s2 H2.
  eapply py_cons; [apply (h_nrm2 _ s2 (Grad o) (Tmp lid 2) (Tmp lid 3) d (fun _ => q) H2); try assumption; try discriminate|].
  { apply upd_eq. } { intros idx _. rewrite Eg. reflexivity. }
  intros s3 H3.
  eapply py_cons; [apply (h_copy _ s3 (Tmp lid 2) (Tmp lid 0) (fun _ => q) (fun _ => q) H3); try assumption; try discriminate|].
  { apply upd_eq. } { reflexivity. }
  intros s4 H4.
  eapply py_cons; [apply (h_prod _ s4 (Tmp lid 2) (Tmp lid 0) (fun _ => q) (fun _ => q) (fun _ => q * q) H4); try assumption; try discriminate|].
  { rewrite upd_ne by (intros Hc; inversion Hc). apply upd_eq. } { apply upd_eq. } { reflexivity. }
  intros s5 H5.
  eapply py_cons; [change (o_div (@o_one XR _) (o_ofZ 2)) with (x_div (Fin 1) (Fin (IZR 2))); rewrite x_div_fin by lra;
    apply (h_scal_inplace (1 / 2) _ s5 (Tmp lid 0) (fun _ => q * q) (fun _ => frob_L (vshape o) tgt v) H5); try assumption|].
  { apply upd_eq. }
  { intros idx _. unfold frob_L, q. rewrite sqrt_sqrt; [unfold d, frob_dL; field|]. apply Rsuml_nonneg. intros i _. apply Rle_0_sqr. }
  intros s6 H6. apply py_nil.
  exists (upd (Tmp lid 0) (Some (fin (fun _ => frob_L (vshape o) tgt v))) (upd (Tmp lid 2) (Some (fin (fun _ => q))) (upd (Tmp lid 3) None M))), (fun n => if Nat.eq_dec n o then d else G n).
  split; [|split; [|split; [|split; [|split]]]].
  - eapply has_sub; [exact H6|]. intros x f _ Hf. destruct x as [n|n|k i]; cbn [ov] in Hf.
    + rewrite !upd_ne in Hf by discriminate. rewrite !upd_ne by discriminate. assumption.
    + rewrite !(upd_ne (Grad n) (Tmp _ _)) by discriminate. destruct (Nat.eq_dec n o) as [->|Hn].
      * rewrite upd_eq. rewrite Or in Hf. assumption.
      * rewrite !upd_ne by congruence. cbn [ov]. assumption.
    + unfold upd in *. repeat match goal with |- context [gvar_dec ?a ?b] => destruct (gvar_dec a b) end; try congruence; try discriminate; cbn [ov]; assumption.
  - intros idx _. destruct (Nat.eq_dec o o); [reflexivity|congruence].
  - intros n Hn. destruct (Nat.eq_dec n o); [contradiction|reflexivity].
  - apply upd_eq.
  - intros n. rewrite !upd_ne by discriminate. reflexivity.
  - intros k i Hk. rewrite !upd_ne by congruence. reflexivity.
Qed.
End Frob.
