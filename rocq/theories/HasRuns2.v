(** * Assertions on named tensors: embedding and its gradient *)
From Coq Require Import Reals Lra.
From Verif Require Import Base Spec Geometry Traits TraitsProofs Runtime Ops RealOps TensorSem ElemGeneric OneOut ElemOps Formulas Axis AccRuns Loops SliceOps SliceGeo SliceProofs SliceReduce RSum PropElem PropElem2 PropElemR PropSlice XReals Sequence NdRuns KeepRuns AnyRuns SoftmaxOps SoftmaxScalar SoftmaxRuns SoftmaxProofs PairGeo PropSoftmax LossOps LossRuns EmbedRuns EmbedReal LossProofs PropLoss Serial XTriples HasRuns.
Local Close Scope Z_scope.
Local Open Scope R_scope.

(** ** A store of finite values, read as a store of reals *)
Definition toR (x : XR) : R := match x with Fin r => r | _ => 0 end.
Definition bufR (b : buf XR) : buf R := match b with BF l => BF (map toR l) | BI l => BI l | BB l => BB l end.
Definition storeR (s : store XR) : store R := fun h => bufR (s h).

Lemma bufR_ty b : ty (bufR b) = ty b.
Proof. destruct b; cbn; rewrite ?zlen_map; reflexivity. Qed.
Lemma storeR_stored k s t : stored k s t -> stored k (storeR s) t.
Proof. intros H i Hi. unfold storeR. rewrite bufR_ty. apply H. assumption. Qed.
Lemma storeR_ielem s t idx : ielem (storeR s) t idx = ielem s t idx.
Proof. unfold ielem, storeR. destruct (s _); reflexivity. Qed.
Lemma zn_map_def {X Y} {DX : Dflt X} {DY : Dflt Y} (f : X -> Y) (l : list X) i : f dflt = dflt -> zn (map f l) i = f (zn l i).
Proof. intros E. unfold zn. rewrite <- E. apply map_nth. Qed.
Lemma storeR_elem s t idx : elem (storeR s) t idx = toR (elem s t idx).
Proof. unfold elem, storeR. destruct (s _); cbn [bufR fl]; try (apply zn_map_def; reflexivity); unfold zn; destruct (Z.to_nat _); reflexivity. Qed.
Lemma storeR_buf s t f i : wf_tensor t -> stored KF s t -> xval s t (fin f) -> (0 <= i < ntiles t)%Z ->
  fl (s (th t i)) = map Fin (fl (storeR s (th t i))).
Proof.
  intros W S V Hi. apply wf_wft in W. pose proof (S i Hi) as Ht. unfold storeR. destruct (s (th t i)) as [l|l|l] eqn:El; cbn in Ht; inversion Ht as [Hl].
  cbn [fl bufR]. rewrite map_map. rewrite <- (map_id l) at 1. apply map_ext_in. intros x Hx.
  apply (In_nth _ _ dflt) in Hx as (n & Hn & <-).
  assert (Hp : (0 <= Z.of_nat n < tsz t i)%Z) by (unfold zlen in Hl; lia).
  destruct (eidx_spec t i (Z.of_nat n) W Hi Hp) as (I1 & I2 & I3). specialize (V _ I1). unfold elem in V. rewrite I2, I3, El in V. cbn [fl] in V.
  unfold zn in V. rewrite Nat2Z.id in V. rewrite V. reflexivity.
Qed.

Section Has.
Context {E : env}.
Implicit Types (M : smap) (s : store XR) (x y : gvar).

(** keep-style triples as triples of the environment *)
Lemma h_keep ks M s y op f' : has M s -> U y -> (forall ts, op = Ok ts -> Forall (ok_task s) ts) ->
  runs_keep ks op s (fun s' => xval s' (A y) (fin f') /\ frame [A y] s s') -> runs_nd op s (has (upd y (Some (fin f')) M)).
Proof.
  intros HM Hy Ho Hr. eapply nd_weaken; [eapply keep_nd; eassumption|]. intros s' Ht [Hv Hf].
  eapply has_write; try eassumption. intros f Ef. inversion Ef; subst. assumption.
Qed.

Lemma clear_okt s0 h : ok_task s0 (clear_submit (T:=XR) h).
Proof.
  apply ok_body. cbn [t_body clear_submit t_acc]. intros ins out Eo k h' m b N1 N2.
  destruct ins as [|[l|l|l] [|? ?]]; cbn [clear_cpu] in Eo; try discriminate; inversion Eo; subst; clear Eo;
    (destruct k as [|k]; [|destruct k; discriminate]); cbn [nth_error] in *; inversion N1; inversion N2; subst;
    eexists; (split; [reflexivity|]); (split; [cbn [ty]; rewrite zlen_zrep by apply zlen_nonneg; reflexivity|discriminate]).
Qed.
Lemma h_embedding index M s x y axis fs f' : wf_tensor index -> disj index (A y) -> stored KI s index ->
  emb_match index (A x) (A y) axis -> indices_ok s index (A x) ->
  has M s -> U x -> U y -> x <> y -> M x = Some (fin fs) ->
  (forall idx, inb (t_shape (A y)) idx -> fs [zn idx axis; ielem s index (del axis idx)] = f' idx) ->
  runs_nd (embedding_async index (A x) (A y) axis) s (has (upd y (Some (fin f')) M)).
Proof.
  intros WI DI SI Hm Hix HM Ux Uy Hn Mx Hf. eapply (h_keep [index]); [assumption|assumption| |].
  - intros ts Ets. rewrite embedding_submits in Ets by (first [apply wf_wft; first [assumption|apply UW; assumption]|assumption]). inversion Ets; subst.
    apply Forall_forall. intros t Ht. apply in_map_iff in Ht as ([i [q|]] & <- & _); [apply embedding_okt|apply clear_okt].
  - eapply keep_weaken; [apply (C30_embedding index (A x) (A y) axis s); try assumption|].
    + apply UW; assumption. + apply UW; assumption. + apply UD; assumption. + eapply has_st; eassumption. + eapply has_st; eassumption.
    + intros s' _ [H1 H2]. split; [|assumption]. intros idx Hi. rewrite H1 by assumption.
      rewrite (has_val M s x (fin fs)); try assumption; [unfold fin; rewrite Hf by assumption; reflexivity|].
      destruct Hm as (Hs & L2 & E1 & _). destruct (list2 _ L2) as (a & b & Es). rewrite Es in E1 |- *.
      constructor; [|constructor; [|constructor]].
      * change (zn [a; b] 0) with a in E1. rewrite <- E1. apply inb_zn; [assumption|]. apply inb_zlen in Hi. destruct Hs as (Ha & _). lia.
      * specialize (Hix (del axis idx) (del_fits _ _ _ _ Hs Hi)). rewrite Es in Hix. change (zn [a; b] 1) with b in Hix. lia.
Qed.

Lemma h_embedding_backward index M s x y axis fs g f' : wf_tensor index -> disj index (A y) -> stored KI s index ->
  emb_match index (A y) (A x) axis -> indices_ok s index (A y) ->
  has M s -> U x -> U y -> x <> y -> M x = Some (fin fs) -> M y = Some (fin g) ->
  (forall c v, inb (t_shape (A y)) [c; v] -> g [c; v] + Rsuml (all_idx (t_shape index)) (fun idx =>
      if (ielem s index idx =? v)%Z then fs (ins axis c idx) else 0) = f' [c; v]) ->
  runs_nd (embedding_backward_async index (A x) (A y) axis false) s (has (upd y (Some (fin f')) M)).
Proof.
  intros WI DI SI Hm Hix HM Ux Uy Hn Mx My Hf.
  assert (Wx := UW x Ux). assert (Wy := UW y Uy). assert (D := UD x y Ux Uy Hn).
  assert (Sx := has_st _ _ _ HM Ux). assert (Sy := has_st _ _ _ HM Uy).
  assert (Vx := has_val _ _ _ _ HM Ux Mx). assert (Vy := has_val _ _ _ _ HM Uy My).
  eapply (h_keep [index]); [assumption|assumption| |].
  - intros ts Ets. rewrite embedding_backward_submits in Ets by (first [apply wf_wft; first [assumption|apply UW; assumption]|assumption]). inversion Ets; subst.
    apply Forall_forall. intros t Ht. apply in_map_iff in Ht as ([i q] & <- & _). apply embedding_backward_okt.
  - assert (Wi' := wf_wft _ WI). assert (Wx' := wf_wft _ Wx). assert (Wy' := wf_wft _ Wy).
    eapply keep_weaken; [apply (embedding_backward_runs index (A y) (A x) axis); assumption|].
    intros s' _ [H1 H2]. split; [|assumption].
    (* the same call on the store of reals *)
    set (r := storeR s).
    assert (Rix : indices_ok r index (A y)) by (intros idx Hi; unfold r; rewrite storeR_ielem; apply Hix; assumption).
    pose proof (embedding_backward_runs index (A y) (A x) axis Wi' Wy' Wx' Hm r DI D (storeR_stored _ _ _ SI) (storeR_stored _ _ _ Sy) (storeR_stored _ _ _ Sx) Rix) as R1.
    pose proof (embedding_backward_R index (A y) (A x) axis Wi' Wy' Wx' Hm r DI D (storeR_stored _ _ _ SI) (storeR_stored _ _ _ Sy) (storeR_stored _ _ _ Sx) Rix) as R2.
    destruct R1 as (ts & Ets & K1 & K2 & Ha1). destruct R2 as (ts' & Ets' & _ & _ & Ha2). assert (ts' = ts) by congruence. subst ts'. clear Ets'.
    destruct (always_terminates _ _ _ Ha1) as (r' & St & _ & [Q1 _]).
    destruct (proj2 (Ha2 _ _ St) eq_refl) as (_ & [Q2 _]).
    intros idx Hi. rewrite H1 by assumption.
    destruct Hm as (Hs & L2 & E1 & E2). 
    assert (exists c v, idx = [c; v]) as (c & v & ->).
    { pose proof (inb_zlen _ _ Hi) as L. rewrite L2 in L. symmetry in L. destruct (list2 _ L) as (c & v & ->). eauto. }
    unfold fin. rewrite <- (Hf c v Hi). rewrite (Vy _ Hi).
    assert (Eg : g [c; v] = elem r (A y) [c; v]) by (unfold r; rewrite storeR_elem, (Vy _ Hi); reflexivity).
    assert (Es : forall idx, inb (t_shape index) idx -> fs (ins axis c idx) = elem r (A x) (ins axis c idx)).
    { intros i Hii. unfold r. rewrite storeR_elem, Vx; [reflexivity|]. apply (ins_fits (A x) index); try assumption.
      rewrite E1. destruct (list2 _ L2) as (a & b & Esh). rewrite Esh in Hi |- *. inversion Hi; subst. assumption. }
    rewrite (Rsuml_ext _ _ (fun idx => if (ielem r index idx =? v)%Z then elem r (A x) (ins axis c idx) else 0)).
    2:{ intros i Hii. apply all_idx_In in Hii; [|apply wf_ps; assumption]. unfold r at 1. rewrite storeR_ielem, Es by assumption. reflexivity. }
    unfold fin. rewrite Eg. rewrite <- Q2, Q1 by assumption.
    apply (fold_hom Fin). intros a x0 Hx. apply filter_In in Hx as [Hx _]. apply (eb_xs_In (A y) (A x) axis) in Hx as [Hx _].
    unfold eb_term, eb_cell. cbn [nth]. rewrite (storeR_buf s (A x) fs) by assumption. fold r.
    replace (il (r (th index (em_a index (A x) axis (fst x0))))) with (il (s (th index (em_a index (A x) axis (fst x0))))) by (unfold r, storeR; destruct (s _); reflexivity).
    apply (fold_hom Fin). intros a1 i2 _. apply (fold_hom Fin). intros a2 i1 _.
    destruct (_ =? _)%Z; [|reflexivity]. rewrite (zn_map_def Fin) by reflexivity. reflexivity.
Qed.
End Has.
