(** * C30 embedding and embedding_backward, C31 mask_scalar, C32 total_sum_accum, subtract_indexed_outputs and
      the cross-entropy loss

    [ins axis c idx] is idx with coordinate c inserted at position axis, [del axis idx] is idx without it.
    [runs_keep ks] is [runs] where the tasks are required to behave only while the tensors of [ks]
    (index data) keep their contents; [runs_comm] also allows commuting accesses. *)
From Coq Require Import Reals Lra Lia Permutation.
From Verif Require Import Base Spec Geometry Traits TraitsProofs Runtime Ops TensorSem ElemGeneric OneOut
  KernelsElem ElemOps ElemProofs Axis AccRuns Loops SliceOps SliceGeo SliceProofs SliceReduce RealOps RSum Concrete PropElem PropElemR
  PropSlice Sequence XReals SoftmaxScalar PropSoftmax Serial NdRuns PropCopy
  KeepRuns CommRuns AnyRuns LossOps LossProofs LossRuns TotalSum EmbedRuns EmbedReal CrossEntropy.
Local Open Scope Z_scope.

(** ** C30 *)
(** index has the shape of embed without [axis] and its tiling; the rows of vocab run along [axis]; a base tile
    of embed covers whole tiles of vocab; every index is in the first column tile of vocab. *)
Definition indices_ok {T} (s : store T) (index vocab : tensor) : Prop :=
  forall idx, inb (t_shape index) idx -> 0 <= ielem s index idx < Z.min (zn (t_base vocab) 1) (zn (t_shape vocab) 1).

Section C30.
Context {T : Type} {O : Ops T}.
Theorem C30_embedding (index vocab embed : tensor) axis (s : store T) : wf_tensor index -> wf_tensor vocab -> wf_tensor embed ->
  emb_match index vocab embed axis -> disj index embed -> disj vocab embed ->
  stored KI s index -> stored KF s vocab -> stored KF s embed -> indices_ok s index vocab ->
  runs_keep [index] (embedding_async index vocab embed axis) s (fun s' =>
    (forall idx, inb (t_shape embed) idx ->
       elem s' embed idx = elem s vocab [zn idx axis; ielem s index (del axis idx)]) /\
    frame [embed] s s').
Proof. intros W1 W2 W3. apply wf_wft in W1, W2, W3. intros. apply embedding_runs; assumption. Qed.

(** What is and is not rejected: shapes are compared except in dimension axis-1. *)
Theorem C30_throws (index vocab embed : tensor) axis redux : wf_tensor index -> wf_tensor vocab -> wf_tensor embed ->
  0 <= axis < zlen (t_shape embed) -> ~ emb_checked index vocab embed axis ->
  throws (embedding_async (T:=T) index vocab embed axis) /\ throws (embedding_backward_async (T:=T) index embed vocab axis redux).
Proof.
  intros W1 W2 W3 Ha Hn. apply wf_wft in W1, W2, W3. split; apply (checks_false _ _ _ (embedding_check_checks index vocab embed axis W1 W2 W3 Ha) Hn).
Qed.

(** embed[.., 3, ..] is larger than index[.., 2, ..] in the dimension before the axis: accepted, and index is read out
    of bounds. *)
Theorem C30_unchecked_dimension_refuted (f : list Z -> Z) (g : list Z -> T) :
  let index := std_tensor [2] [2] 0 in let vocab := std_tensor [4; 5] [4; 5] 10 in let embed := std_tensor [3; 4] [3; 4] 20 in
  let s := puti index f (put vocab g (put embed g (fun _ => BF []))) in
  (forall idx, f idx = 0) ->
  ~ slice_match embed index 1 /\ exists ts, embedding_async index vocab embed 1 = Ok ts /\ forall P, ~ always ts s P.
Proof.
  intros index vocab embed s Hf. split.
  { intros (_ & E & _). vm_compute in E. congruence. }
  exists [clear_submit 20; embedding_submit 3 1 4 0 4 0 10 20]. split; [reflexivity|]. intros P Ha.
  (* the clear task runs first *)
  pose proof (Ha _ _ (steps_refl _)) as [Hs _].
  destruct (Hs [] _ _ s eq_refl) as (s1 & E1); [intros t' []|intros h; reflexivity|]. cbn [snd] in E1.
  assert (Hstep : always [embedding_submit 3 1 4 0 4 0 10 20] s1 P).
  { refine (always_here _ _ _ _ _ Ha _). eapply steps_cons; [|apply steps_refl].
    apply (step_run [] (clear_submit 20) [embedding_submit 3 1 4 0 4 0 10 20] s s s1); [intros t' []|intros h; reflexivity|exact E1]. }
  revert Hstep. apply first_ub. unfold exec_task in E1. cbn [t_body clear_submit t_acc map in_buf reads fst snd] in E1.
  assert (Es : s 20 = BF (map (fun o => g (unoff [3; 4] o)) (zrange 12))) by reflexivity.
  rewrite Es in E1. cbn [clear_cpu] in E1. rewrite bind_Ok in E1. cbn [write_back] in E1. inversion E1; subst s1.
  unfold exec_task. cbn [t_body embedding_submit t_acc map in_buf reads fst snd]. unfold upd_store. cbn [Z.eqb Pos.eqb].
  change (s 0) with (BI (T:=T) [f [0]; f [1]]). rewrite !Hf.
  vm_compute. reflexivity.
Qed.

(** A vocabulary tiled along its second dimension: index 1 is a valid column but lies in another tile. *)
Theorem C30_tiled_vocab_refuted (f : list Z -> Z) (g : list Z -> T) :
  let index := std_tensor [1] [1] 0 in let vocab := std_tensor [1; 2] [1; 1] 10 in let embed := std_tensor [1; 1] [1; 1] 20 in
  let s := puti index f (put vocab g (put embed g (fun _ => BF []))) in
  (forall idx, f idx = 1) ->
  emb_match index vocab embed 1 /\ (forall idx, inb (t_shape index) idx -> 0 <= ielem s index idx < zn (t_shape vocab) 1) /\
  exists ts, embedding_async index vocab embed 1 = Ok ts /\ forall P, ~ always ts s P.
Proof.
  intros index vocab embed s Hf. split; [|split].
  - split; [|split; [reflexivity|split; [reflexivity|exists 1; reflexivity]]]. split; [vm_compute; split; congruence|]. split; reflexivity.
  - intros idx Hi. unfold s. rewrite puti_ielem; [|apply wf_wft; unfold index; std_wf_tac|assumption]. rewrite Hf. vm_compute. split; congruence.
  - exists [clear_submit 20; embedding_submit 1 1 1 0 1 0 10 20]. split; [reflexivity|]. intros P Ha.
    pose proof (Ha _ _ (steps_refl _)) as [Hs _].
    destruct (Hs [] _ _ s eq_refl) as (s1 & E1); [intros t' []|intros h; reflexivity|]. cbn [snd] in E1.
    assert (Hstep : always [embedding_submit 1 1 1 0 1 0 10 20] s1 P).
    { refine (always_here _ _ _ _ _ Ha _). eapply steps_cons; [|apply steps_refl].
      apply (step_run [] (clear_submit 20) [embedding_submit 1 1 1 0 1 0 10 20] s s s1); [intros t' []|intros h; reflexivity|exact E1]. }
    revert Hstep. apply first_ub. unfold exec_task in E1. cbn [t_body clear_submit t_acc map in_buf reads fst snd] in E1.
    assert (Es : s 20 = BF [g [0; 0]]) by reflexivity.
    rewrite Es in E1. cbn [clear_cpu] in E1. rewrite bind_Ok in E1. cbn [write_back] in E1. inversion E1; subst s1.
    unfold exec_task. cbn [t_body embedding_submit t_acc map in_buf reads fst snd]. unfold upd_store. cbn [Z.eqb Pos.eqb].
    change (s 0) with (BI (T:=T) [f [0]]). rewrite Hf. vm_compute. reflexivity.
Qed.

(** An axis equal to the number of dimensions is not rejected: embed.shape[axis] is read out of bounds. *)
Theorem C30_axis_unchecked_refuted :
  embedding_async (T:=T) (std_tensor [2] [2] 0) (std_tensor [4; 5] [4; 5] 10) (std_tensor [2; 4] [2; 4] 20) 2 = UB.
Proof. reflexivity. Qed.
End C30.

Section C30R.
Theorem C30_embedding_backward (index vocab embed : tensor) axis (s : store R) : wf_tensor index -> wf_tensor vocab -> wf_tensor embed ->
  emb_match index vocab embed axis -> disj index vocab -> disj embed vocab ->
  stored KI s index -> stored KF s vocab -> stored KF s embed -> indices_ok s index vocab ->
  runs_keep [index] (embedding_backward_async index embed vocab axis false) s (fun s' =>
    (forall c v, inb (t_shape vocab) [c; v] ->
       elem s' vocab [c; v] = (elem s vocab [c; v] + Rsuml (all_idx (t_shape index)) (fun idx =>
         if ielem s index idx =? v then elem s embed (ins axis c idx) else 0))%R) /\
    frame [vocab] s s').
Proof. intros W1 W2 W3. apply wf_wft in W1, W2, W3. intros. apply embedding_backward_R; assumption. Qed.

(** Sums over the positions of embed, along [axis] and the others. *)
Lemma Rsuml_axis sh axis (f : Z -> list Z -> R) : pos sh -> 0 <= axis < zlen sh ->
  Rsuml (all_idx sh) (fun idx => f (zn idx axis) (del axis idx)) =
  Rsuml (all_idx (del axis sh)) (fun i => Rsum (zn sh axis) (fun c => f c i)).
Proof.
  intros Hp Ha.
  assert (Hd : pos (del axis sh)).
  { destruct (split_at sh axis Ha) as (a & x & b & -> & L). rewrite del_app by assumption. unfold pos in *. rewrite Forall_app in *.
    destruct Hp as [P1 P2]. inversion P2; subst. auto. }
  assert (E : Permutation (flat_map (fun i => map (fun c => ins axis c i) (zrange (zn sh axis))) (all_idx (del axis sh))) (all_idx sh)).
  { assert (Hi : forall i, In i (all_idx (del axis sh)) -> zlen i = zlen sh - 1).
    { intros i Hi. apply all_idx_In in Hi; [|assumption]. apply inb_zlen in Hi. rewrite zlen_del in Hi by assumption. lia. }
    apply NoDup_Permutation.
    - assert (Hn := NoDup_all_idx _ Hd). revert Hi Hn. generalize (all_idx (del axis sh)). induction l as [|i l IH]; intros Hi Hn; [constructor|].
      cbn [flat_map]. inversion Hn; subst. apply NoDup_app'.
      + apply NoDup_map_inj; [|apply NoDup_zrange]. intros c1 c2 _ _ E.
        apply (f_equal (fun x => zn x axis)) in E. rewrite !zn_ins in E by (rewrite Hi by (left; reflexivity); lia). assumption.
      + apply IH; [|assumption]. intros j Hj. apply Hi. right. assumption.
      + intros x Hx Hy. apply in_map_iff in Hx as (c & <- & Hc). apply in_flat_map in Hy as (j & Hj & Hy). apply in_map_iff in Hy as (c' & E & Hc').
        apply (f_equal (del axis)) in E. rewrite !del_ins in E by (rewrite Hi by (first [left; reflexivity|right; assumption]); lia). subst. contradiction.
    - apply NoDup_all_idx. assumption.
    - intros idx. rewrite in_flat_map. rewrite all_idx_In by assumption. split.
      + intros (i & Hin & Hx). apply in_map_iff in Hx as (c & <- & Hc). apply zrange_In in Hc. pose proof (Hi i Hin) as Lz. apply all_idx_In in Hin; [|assumption].
        destruct (split_at sh axis Ha) as (a & x & b & -> & L). rewrite del_app in Hin by assumption. rewrite zn_mid in Hc by assumption.
        apply inb_app_inv_l in Hin as (i1 & i2 & -> & H1 & H2). rewrite ins_app by (apply inb_zlen in H1; lia).
        apply inb_app; [assumption|]. constructor; assumption.
      + intros Hin. exists (del axis idx). pose proof (inb_zlen _ _ Hin) as Lz. split.
        * apply all_idx_In; [assumption|].
          destruct (split_at sh axis Ha) as (a & x & b & -> & L). rewrite del_app by assumption.
          apply inb_app_inv_l in Hin as (i1 & i2 & -> & H1 & H2). inversion H2; subst. rewrite del_app by (apply inb_zlen in H1; lia).
          apply inb_app; assumption.
        * apply in_map_iff. exists (zn idx axis). split; [apply ins_del; lia|]. apply zrange_In. apply Axis.inb_zn; [assumption|lia]. }
  rewrite <- (Rsuml_perm _ _ _ E), Rsuml_flat. apply Rsuml_ext. intros i Hi. rewrite Rsuml_map. apply Rsuml_ext. intros c Hc.
  apply all_idx_In in Hi; [|assumption]. apply inb_zlen in Hi. rewrite zlen_del in Hi by assumption.
  rewrite zn_ins, del_ins by lia. reflexivity.
Qed.

Lemma Rsuml_swap {A B} (l : list A) (k : list B) (f : A -> B -> R) :
  Rsuml l (fun x => Rsuml k (f x)) = Rsuml k (fun y => Rsuml l (fun x => f x y)).
Proof.
  induction l as [|x l IH]; [symmetry; apply Rsuml_0; reflexivity|].
  rewrite Rsuml_cons, IH, <- Rsuml_plus. apply Rsuml_ext. intros y _. rewrite Rsuml_cons. reflexivity.
Qed.

Lemma all2 a b (g : list Z -> R) : 0 < a -> 0 < b ->
  Rsuml (all_idx [a; b]) g = Rsum b (fun v => Rsum a (fun c => g [c; v])).
Proof.
  intros Ha Hb. unfold all_idx. rewrite Rsuml_map. replace (prodZ [a; b]) with (a * b) by (cbn; ring).
  change (Rsum (a * b) (fun x => g (unoff [a; b] x)) = Rsum b (fun v => Rsum a (fun c => g [c; v]))).
  rewrite <- Rsum_mul by lia. apply Rsum_ext. intros v Hv. apply Rsum_ext. intros c Hc. f_equal.
  cbn [unoff]. rewrite (Z.mul_comm a v), Z.mod_add, Z.div_add by lia. rewrite Z.mod_small, Z.div_small by lia.
  rewrite Z.add_0_l, Z.mod_small by lia. reflexivity.
Qed.

(** <embedding(vocab), E> = <vocab, embedding_backward(E)> for every vocab and E and every index contents: the
    vocabulary gradient starts from zero. *)
Theorem C30_adjoint (index vocab embed : tensor) axis (s1 s2 : store R) : wf_tensor index -> wf_tensor vocab -> wf_tensor embed ->
  emb_match index vocab embed axis -> disj index embed -> disj vocab embed -> disj index vocab ->
  stored KI s1 index -> stored KF s1 vocab -> stored KF s1 embed ->
  stored KI s2 index -> stored KF s2 vocab -> stored KF s2 embed ->
  indices_ok s1 index vocab -> (forall idx, inb (t_shape index) idx -> ielem s2 index idx = ielem s1 index idx) ->
  (forall i, inb (t_shape vocab) i -> elem s2 vocab i = 0%R) ->
  runs_keep [index] (embedding_async index vocab embed axis) s1 (fun s1' =>
  runs_keep [index] (embedding_backward_async index embed vocab axis false) s2 (fun s2' =>
    Rsuml (all_idx (t_shape embed)) (fun i => elem s1' embed i * elem s2 embed i)%R =
    Rsuml (all_idx (t_shape vocab)) (fun i => elem s1 vocab i * elem s2' vocab i)%R)).
Proof.
  intros W1 W2 W3 HM D1 D2 D3 A1 A2 A3 B1 B2 B3 Hix Heq H0.
  eapply keep_weaken; [apply C30_embedding; eassumption|]. intros s1' _ [E1 _]. cbv beta.
  eapply keep_weaken; [apply C30_embedding_backward; try eassumption|].
  { apply disj_sym. assumption. }
  { intros i Hi. rewrite Heq by assumption. apply Hix. assumption. }
  intros s2' _ [E2 _].
  apply wf_wft in W1, W2, W3. pose proof HM as (HS & L2 & Evs & _). pose proof HS as (Hax & Esh & _).
  destruct (list2 _ L2) as (v0 & v1 & Ev).
  pose proof (wf_ps _ W2) as Pv. pose proof (wf_ps _ W3) as Pe. pose proof (wf_ps _ W1) as Pi. rewrite Ev in Pv. inversion Pv as [|? ? Q0 Q1]; subst. inversion Q1 as [|? ? Q2 _]; subst.
  assert (V : forall i, inb (t_shape index) i -> 0 <= ielem s1 index i < v1).
  { intros i Hi. specialize (Hix i Hi). rewrite Ev in Hix. change (zn [v0; v1] 1) with v1 in Hix. lia. }
  transitivity (Rsuml (all_idx (t_shape embed)) (fun i => (fun c j => elem s1 vocab [c; ielem s1 index j] * elem s2 embed (ins axis c j))%R (zn i axis) (del axis i))).
  { apply Rsuml_ext. intros i Hi. apply all_idx_In in Hi; [|assumption]. rewrite E1 by assumption. cbv beta.
    pose proof (inb_zlen _ _ Hi). rewrite ins_del by lia. reflexivity. }
  rewrite (Rsuml_axis (t_shape embed) axis (fun c j => elem s1 vocab [c; ielem s1 index j] * elem s2 embed (ins axis c j))%R) by assumption. cbv beta. rewrite <- Esh. rewrite Ev, all2 by lia.
  replace (zn (t_shape embed) axis) with v0 by (rewrite Evs, Ev; reflexivity).
  transitivity (Rsum v1 (fun v => Rsum v0 (fun c => Rsuml (all_idx (t_shape index)) (fun i =>
     elem s1 vocab [c; v] * (if ielem s1 index i =? v then elem s2 embed (ins axis c i) else 0))%R))).
  2:{ apply Rsum_ext. intros v Hv. apply Rsum_ext. intros c Hc. rewrite E2 by (rewrite Ev; repeat constructor; lia).
      rewrite H0 by (rewrite Ev; repeat constructor; lia). rewrite Rplus_0_l, <- Rsuml_scal. apply Rsuml_ext. intros i Hi.
      apply all_idx_In in Hi; [|assumption]. rewrite Heq by assumption. reflexivity. }
  unfold Rsum. symmetry. etransitivity; [apply Rsuml_ext; intros v _; apply Rsuml_swap|].
  rewrite Rsuml_swap. apply Rsuml_ext. intros i Hi. apply all_idx_In in Hi; [|assumption]. rewrite Rsuml_swap. apply Rsuml_ext. intros c Hc.
  rewrite <- (Rsuml_one Z.eq_dec (zrange v1) (ielem s1 index i) (fun v => elem s1 vocab [c; v] * elem s2 embed (ins axis c i))%R).
  - apply Rsuml_ext. intros v _. destruct (Z.eqb_spec (ielem s1 index i) v), (Z.eq_dec v (ielem s1 index i)); subst; try congruence; lra.
  - apply NoDup_zrange.
  - apply zrange_In. apply V. assumption.
Qed.

(** A concrete case: a 3 x 4 x 2 embedding from a 4 x 5 vocabulary stored in 2 x 5 tiles, embed in 2 x 4 x 1 tiles. *)
Example C30_case (f : list Z -> Z) (g e : list Z -> R) :
  let index := std_tensor [3; 2] [2; 1] 0 in let vocab := std_tensor [4; 5] [2; 5] 10 in let embed := std_tensor [3; 4; 2] [2; 4; 1] 20 in
  let s := puti index f (put vocab g (put embed e (fun _ => BF []))) in
  (forall i, 0 <= f i < 5) ->
  wf_tensor index /\ wf_tensor vocab /\ wf_tensor embed /\ emb_match index vocab embed 1 /\ disj index embed /\ disj vocab embed /\ disj index vocab /\ stored KI s index /\ stored KF s vocab /\ stored KF s embed /\ indices_ok s index vocab.
Proof.
  intros index vocab embed s Hf.
  assert (W1 : wf_tensor index) by (unfold index; std_wf_tac). assert (W2 : wf_tensor vocab) by (unfold vocab; std_wf_tac).
  assert (W3 : wf_tensor embed) by (unfold embed; std_wf_tac).
  assert (D1 : disj index embed) by (apply std_disj; left; vm_compute; congruence).
  assert (D2 : disj vocab embed) by (apply std_disj; left; vm_compute; congruence).
  assert (D3 : disj index vocab) by (apply std_disj; left; vm_compute; congruence).
  pose proof (wf_wft _ W1) as F1. pose proof (wf_wft _ W2) as F2. pose proof (wf_wft _ W3) as F3.
  split; [assumption|]. split; [assumption|]. split; [assumption|].
  split; [split; [|split; [reflexivity|split; [reflexivity|exists 2; reflexivity]]]; split; [vm_compute; split; congruence|split; reflexivity]|].
  split; [assumption|]. split; [assumption|]. split; [assumption|]. unfold s.
  split; [apply puti_stored; assumption|].
  split; [apply put_stored_other; [assumption|apply disj_sym; assumption|apply put_stored; assumption]|].
  split; [apply put_stored_other; [assumption|apply disj_sym; assumption|apply put_stored_other; [assumption|apply disj_sym; assumption|apply put_stored; assumption]]|].
  intros idx Hi. rewrite puti_ielem by assumption. change (0 <= f idx < Z.min 5 5). specialize (Hf idx). lia.
Qed.
End C30R.

(** ** C31 *)
Section C31.
Context {T : Type} {O : Ops T}.
(** [mask_match mask A b]: the shape and base tile of mask are those of A without its last b dimensions.  The
    mask entry of element idx of A is the one at the first ndim-b coordinates. *)
Theorem C31_mask_scalar (mask A : tensor) (b : Z) (val : T) (s : store T) : wf_tensor mask -> wf_tensor A ->
  mask_match mask A b -> disj mask A -> stored KB s mask -> stored KF s A ->
  runs (mask_scalar_async mask val A b) s (fun s' =>
    (forall idx, inb (t_shape A) idx ->
       elem s' A idx = if belem s mask (firstn (Z.to_nat (zlen (t_shape A) - b)) idx) then elem s A idx else val) /\
    frame [A] s s').
Proof. intros W1 W2. apply wf_wft in W1, W2. intros. apply mask_scalar_runs; assumption. Qed.

Theorem C31_throws (mask A : tensor) (b : Z) (val : T) : wf_tensor mask -> wf_tensor A -> 0 <= b -> ~ mask_match mask A b ->
  throws (mask_scalar_async mask val A b).
Proof.
  intros W1 W2 Hb Hn. apply wf_wft in W1, W2. apply (checks_false _ _ _ (mask_check_checks mask A b W1 W2 Hb) Hn).
Qed.

(** A negative number of batch dimensions is not rejected: A.shape is read out of bounds. *)
Theorem C31_negative_batch_refuted (val : T) :
  mask_scalar_async (std_tensor [2; 3] [2; 3] 0) val (std_tensor [2] [2] 10) (-1) = UB.
Proof. reflexivity. Qed.

Example C31_case (f : list Z -> bool) (g : list Z -> T) :
  let mask := std_tensor [3; 4] [2; 3] 0 in let A := std_tensor [3; 4; 5] [2; 3; 2] 10 in
  let s := putb mask f (put A g (fun _ => BF [])) in
  wf_tensor mask /\ wf_tensor A /\ mask_match mask A 1 /\ disj mask A /\ stored KB s mask /\ stored KF s A.
Proof.
  intros mask A s.
  assert (W1 : wf_tensor mask) by (unfold mask; std_wf_tac). assert (W2 : wf_tensor A) by (unfold A; std_wf_tac).
  assert (D1 : disj mask A) by (apply std_disj; left; vm_compute; congruence).
  pose proof (wf_wft _ W1) as F1. pose proof (wf_wft _ W2) as F2.
  split; [assumption|]. split; [assumption|].
  split; [split; [vm_compute; split; congruence|split; reflexivity]|]. split; [assumption|].
  split; [apply putb_stored; assumption|]. apply put_stored_other; [assumption|apply disj_sym; assumption|apply put_stored; assumption].
Qed.
End C31.

(** ** C32 *)
(** [labels_match labels dst]: dst has the shape and tiling of labels with one more, first, untiled dimension. *)
Section C32.
Context {T : Type} {O : Ops T}.
Theorem C32_subtract_indexed_outputs (labels dst : tensor) (val : T) (s : store T) : wf_tensor labels -> wf_tensor dst ->
  labels_match labels dst -> disj labels dst -> stored KI s labels -> stored KF s dst ->
  (forall idx, inb (t_shape labels) idx -> 0 <= ielem s labels idx < zn (t_shape dst) 0) ->
  runs_keep [labels] (subtract_indexed_outputs_async val labels dst) s (fun s' =>
    (forall l idx, inb (t_shape dst) (l :: idx) ->
       elem s' dst (l :: idx) = if ielem s labels idx =? l then o_sub (elem s dst (l :: idx)) val else elem s dst (l :: idx)) /\
    frame [dst] s s').
Proof. intros W1 W2. apply wf_wft in W1, W2. intros. apply subtract_runs; assumption. Qed.

Theorem C32_throws (lse src labels val dst : tensor) (a : T) : wf_tensor lse -> wf_tensor src -> wf_tensor labels -> wf_tensor val -> wf_tensor dst ->
  (~ labels_match labels dst -> throws (subtract_indexed_outputs_async a labels dst)) /\
  (~ total_match lse src labels val -> throws (total_sum_accum_async a lse src labels val)).
Proof.
  intros W1 W2 W3 W4 W5. apply wf_wft in W1, W2, W3, W4, W5. split; intros Hn.
  - apply (checks_false _ _ _ (labels_check_checks labels dst W3 W5) Hn).
  - apply (checks_false _ _ _ (total_check_checks lse src labels val W1 W2 W3 W4) Hn).
Qed.
End C32.

Theorem C32_total_sum_accum (lse src labels val : tensor) (alpha : R) (s : store R) :
  wf_tensor lse -> wf_tensor src -> wf_tensor labels -> wf_tensor val -> total_match lse src labels val ->
  disj lse val -> disj src val -> disj labels val ->
  stored KF s lse -> stored KF s src -> stored KI s labels -> stored KF s val ->
  (forall idx, inb (t_shape labels) idx -> 0 <= ielem s labels idx < zn (t_shape src) 0) ->
  runs_comm [labels] (total_sum_accum_async alpha lse src labels val) s (fun s' =>
    elem s' val [] = (elem s val [] +
      alpha * Rsuml (all_idx (t_shape labels)) (fun idx => elem s lse idx - elem s src (ielem s labels idx :: idx)))%R /\
    frame [val] s s').
Proof. intros W1 W2 W3 W4. apply wf_wft in W1, W2, W3, W4. intros. apply total_sum_runs; assumption. Qed.

(** The sequence of calls of the cross-entropy layer (maxsumexp, logsumexp, total_sum_accum, softmax,
    subtract_indexed_outputs), started together under any schedule, adds the loss to val and leaves in grad
    its exact gradient. *)
Theorem C32_crossentropy (src labels ms lse val grad : tensor) (n : Z) (sh : list Z) (a : R) (s : store XR) (v : list Z -> R) (L0 : R) :
  Forall wf_tensor [src; labels; ms; lse; val; grad] -> ForallOrdPairs disj [src; labels; ms; lse; val; grad] ->
  ce_match src labels ms lse val grad n sh ->
  stored KF s src -> stored KI s labels -> stored KF s ms -> stored KF s lse -> stored KF s val -> stored KF s grad ->
  holds s src v -> elem s val [] = Fin L0 ->
  (forall idx, inb sh idx -> 0 <= ielem s labels idx < n) ->
  runs_any (crossentropy_calc (Fin a) src labels ms lse val grad) s (fun s' =>
    elem s' val [] = Fin (L0 + ce_loss a n sh (ielem s labels) v) /\
    (forall l idx, inb (n :: sh) (l :: idx) -> exists g, elem s' grad (l :: idx) = Fin g /\
       derivable_pt_lim (fun t => ce_loss a n sh (ielem s labels) (at_ v (l :: idx) t)) (v (l :: idx)) g) /\
    frame [ms; lse; val; grad] s s').
Proof.
  intros HW HD HM. inversion HW as [|? ? W1 R1]; subst. inversion R1 as [|? ? W2 R2]; subst. inversion R2 as [|? ? W3 R3]; subst.
  inversion R3 as [|? ? W4 R4]; subst. inversion R4 as [|? ? W5 R5]; subst. inversion R5 as [|? ? W6 _]; subst. intros S1 S2 S3 S4 S5 S6 Hv Hz Hl.
  eapply any_weaken; [eapply crossentropy_runs; eassumption|]. intros s' _ (E1 & E2 & E3). split; [assumption|]. split; [|assumption].
  intros l idx Hi. exists (ce_grad a n (ielem s labels) v l idx). split; [apply E2; assumption|].
  inversion Hi; subst. apply ce_grad_correct; [lia| |assumption].
  destruct HM as [_ <- _ _ _ _]. apply wf_ps, wf_wft. assumption.
Qed.

(** A concrete case: 3 classes, 5 samples in tiles of 2. *)
Example C32_case (v : list Z -> R) (f : list Z -> Z) :
  let src := std_tensor [3; 5] [3; 2] 0 in let labels := std_tensor [5] [2] 10 in let ms := std_tensor [2; 5] [2; 2] 20 in
  let lse := std_tensor [5] [2] 30 in let val := std_tensor [] [] 40 in let grad := std_tensor [3; 5] [3; 2] 50 in
  let z := fun _ : list Z => Fin 0 in
  let s := put src (fun i => Fin (v i)) (puti labels f (put ms z (put lse z (put val z (put grad z (fun _ => BF [])))))) in
  (forall i, 0 <= f i < 3) ->
  Forall wf_tensor [src; labels; ms; lse; val; grad] /\ ForallOrdPairs disj [src; labels; ms; lse; val; grad] /\ ce_match src labels ms lse val grad 3 [5] /\ total_match lse src labels val /\ labels_match labels src /\ stored KF s src /\ stored KI s labels /\ stored KF s ms /\ stored KF s lse /\ stored KF s val /\ stored KF s grad /\ holds s src v /\ elem s val [] = Fin 0 /\ (forall idx, inb [5] idx -> 0 <= ielem s labels idx < 3).
Proof.
  intros src labels ms lse val grad z s Hf.
  assert (W1 : wf_tensor src) by (unfold src; std_wf_tac). assert (W2 : wf_tensor labels) by (unfold labels; std_wf_tac).
  assert (W3 : wf_tensor ms) by (unfold ms; std_wf_tac). assert (W4 : wf_tensor lse) by (unfold lse; std_wf_tac).
  assert (W5 : wf_tensor val) by (unfold val; std_wf_tac). assert (W6 : wf_tensor grad) by (unfold grad; std_wf_tac).
  assert (HD : ForallOrdPairs disj [src; labels; ms; lse; val; grad]).
  { repeat (first [apply FOP_nil|apply FOP_cons; [repeat constructor; apply std_disj; left; vm_compute; congruence|]]). }
  split; [repeat constructor; assumption|]. split; [assumption|].
  split; [constructor; repeat split; reflexivity|].
  split; [repeat split; try reflexivity; exists 3; split; reflexivity|].
  split; [exists 3; split; reflexivity|].
  apply wf_wft in W1, W2, W3, W4, W5, W6.
  repeat match goal with H : ForallOrdPairs disj _ |- _ => inversion H; subst; clear H end.
  repeat match goal with H : Forall (disj _) _ |- _ => inversion H; subst; clear H end.
  assert (SO : forall mk k t t' s, wft t' -> disj t t' -> stored k s t' -> stored k (put_gen (T:=XR) mk t s) t').
  { intros. apply put_stored_other; [assumption|apply disj_sym; assumption|assumption]. }
  unfold s.
  split; [apply put_stored; assumption|].
  split; [apply SO; [assumption..|apply puti_stored; assumption]|].
  split; [repeat (apply SO; [assumption..|]); apply put_stored; assumption|].
  split; [repeat (apply SO; [assumption..|]); apply put_stored; assumption|].
  split; [repeat (apply SO; [assumption..|]); apply put_stored; assumption|].
  split; [repeat (apply SO; [assumption..|]); apply put_stored; assumption|].
  split; [intros i Hi; apply (put_elem src (fun j => Fin (v j))); assumption|].
  split; [reflexivity|].
  intros idx Hi. replace (ielem _ labels idx) with (f idx); [apply Hf|].
  symmetry. rewrite <- (puti_ielem labels f (put ms z (put lse z (put val z (put grad z (fun _ => BF []))))) idx W2 Hi).
  unfold ielem, put. rewrite put_other; [reflexivity|]. intros Hin. destruct (etile_bound labels idx W2 Hi).
  eapply (disj_sym src labels); [assumption| |exact Hin]. apply th_In; [assumption|split; assumption].
Qed.
