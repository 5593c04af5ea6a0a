(** * C45: tile operations and one-tile tensors *)
From Coq Require Import Reals Lra.
From Verif Require Import Base Spec Geometry Traits TraitsProofs Runtime Ops RealOps RSum TensorSem ElemGeneric OneOut
  KernelsElem ElemOps ElemProofs AccRuns Axis SliceOps SliceGeo SliceProofs SliceReduce Sequence FiberOps FiberGeo FiberProofs FiberReduce
  MatOps MatProofs GemmProofs Nrm2Proofs SoftmaxOps PairGeo SoftmaxRuns LossOps LossRuns TotalSum RandnProofs ScatterRuns TileCopy TileOps TileProofs
  Formulas PropElem PropElem2 PropElemR PropSlice PropMat Concrete.
Local Open Scope Z_scope.

Lemma ones_pos n : pos (zrep n 1).
Proof. unfold zrep, pos. induction (Z.to_nat n); cbn [repeat]; constructor; [lia|assumption]. Qed.
Lemma tile_nil x : wf_tile x -> ti_ndim x = 0 -> ti_shape x = [].
Proof. intros H E. rewrite ti_ndim_eq in E by assumption. destruct (ti_shape x); [reflexivity|]. rewrite zlen_cons in E. pose proof (zlen_nonneg l). lia. Qed.

(** The one-element tile [tmp] seen with as many dimensions as [src]. *)
Definition tmp_as (src tmp : tile) : tile := (tt_of (zrep (ti_ndim src) 1), ti_h tmp).
Lemma tmp_as_wf src tmp : wf_tile (tmp_as src tmp).
Proof. unfold wf_tile, tmp_as, ti_shape, ti_tt. cbn [fst tt_of tt_shape]. apply TileTraits_new_ok. apply ones_pos. Qed.
Section N.
Context {T : Type} {O : Ops T}.
Lemma tile_nrm2_async (al : T) src (be : T) dst tmp : wf_tile src -> wf_tile dst -> wf_tile tmp ->
  ti_ndim dst = 0 -> ti_ndim tmp = 0 -> o_eqb be o_zero = false ->
  tile_nrm2 al src be dst tmp = nrm2_async al (one src) be (one dst) (one (tmp_as src tmp)) /\
  nrm2_match (one src) (one dst) (one (tmp_as src tmp)).
Proof.
  intros H1 H2 H3 E1 E2 Eb. assert (Hm : nrm2_match (one src) (one dst) (one (tmp_as src tmp))).
  { split; [|split].
    - change (t_shape (one dst)) with (ti_shape dst). apply tile_nil; assumption.
    - rewrite one_gridZ by assumption. rewrite <- ti_ndim_eq by assumption. reflexivity.
    - change (t_base (one (tmp_as src tmp))) with (zrep (ti_ndim src) 1). unfold zrep. clear. induction (Z.to_nat _); cbn [repeat]; constructor; auto. }
  split; [|assumption]. rewrite nrm2_tasks by (try assumption; apply one_wf; try assumption; apply tmp_as_wf).
  rewrite one_n by assumption. change (zrange 1) with [0]. cbn [flat_map app]. unfold nrm2_group, tile_nrm2.
  rewrite E1, E2, Eb. cbn [Z.eqb negb throw_if]. rewrite !one_th, one_tsz by assumption. unfold bj. cbn [Z.eqb]. reflexivity.
Qed.
End N.

Lemma one_wft x : wf_tile x -> wf_tensor (one x).
Proof. intros H. destruct (one_is_constructed x H) as (t & E1 & E2). eapply Tensor_new_wf; eassumption. Qed.
Lemma one_disj a b : wf_tile a -> wf_tile b -> ti_h a <> ti_h b -> disj (one a) (one b).
Proof. intros Ha Hb H h [<-|[]] [E|[]]. congruence. Qed.
Lemma one_elem0 {T} {D : Dflt T} (s : store T) x : wf_tile x -> ti_shape x = [] -> elem s (one x) [] = zn (fl (s (ti_h x))) 0.
Proof.
  intros Hx E. unfold elem. assert (E0 : etile (one x) [] = 0 /\ eoff (one x) [] = 0).
  { unfold etile, eoff. change (t_shape (one x)) with (ti_shape x). change (t_base (one x)) with (ti_shape x). rewrite E. split; reflexivity. }
  destruct E0 as [-> ->]. rewrite one_th. reflexivity.
Qed.
Lemma one_stored {T} k (s : store T) x : wf_tile x -> (stored k s (one x) <-> ty (s (ti_h x)) = (k, ti_nelems x)).
Proof.
  intros Hx. split.
  - intros H. specialize (H 0). rewrite one_n, one_th, one_tsz in H by assumption. apply H. lia.
  - intros H i Hi. rewrite one_n in Hi by assumption. assert (i = 0) by lia. subst i. rewrite one_th, one_tsz by assumption. assumption.
Qed.
Lemma nil_nelems x : wf_tile x -> ti_shape x = [] -> ti_nelems x = 1.
Proof. intros Hx E. rewrite <- one_tsz by assumption. unfold tsz. rewrite one_tsh by assumption. rewrite E. reflexivity. Qed.

Local Open Scope R_scope.
Lemma nrm2_task_runs (src dst : tile) (s : store R) : wf_tile src -> wf_tile dst -> ti_shape dst = [] -> ti_h src <> ti_h dst ->
  stored KF s (one src) -> stored KF s (one dst) ->
  runs (Ok [nrm2_submit (ti_nelems src) (ti_h src) (ti_h dst)]) s (fun s' =>
    elem s' (one dst) [] = sqrt (Rsuml (all_idx (ti_shape src)) (fun idx => elem s (one src) idx * elem s (one src) idx)) /\
    frame [one dst] s s').
Proof.
  intros H1 H2 E Hn S1 S2. pose proof (proj1 (one_stored _ _ _ H1) S1) as T1. pose proof (proj1 (one_stored _ _ _ H2) S2) as T2.
  rewrite (nil_nelems dst) in T2 by assumption.
  eapply runs_weaken; [apply (single_runs s [ti_h src] (ti_h dst) MW (wrap2 (k_nrm2 (ti_nelems src)))
        (fun st => BF [o_sqrt (ssqv (fl (st (ti_h src))) (ti_nelems src))]))|].
  - auto.
  - intros [E'|[]]. congruence.
  - intros x1 x2 H _. rewrite (H (ti_h src)) by (left; reflexivity). reflexivity.
  - intros st _. cbn. rewrite T2. reflexivity.
  - intros st b Hst Tb _. rewrite T2 in Tb. apply ty_BF in Tb as (d & -> & Ld).
    assert (T' : ty (st (ti_h src)) = (KF, ti_nelems src)) by (rewrite Hst; assumption).
    apply ty_BF in T' as (l & El & Ll). cbn [map app]. rewrite El. cbn [wrap2 fl].
    rewrite k_nrm2_ok; [reflexivity| |assumption..]. rewrite <- Ll. apply zlen_nonneg.
  - intros s' _ [L1 L2]. split.
    + rewrite one_elem0 by assumption. rewrite L1. cbn [fl]. change (zn [?x] 0%Z) with x.
      pose proof (one_wf src H1) as W. assert (Hi0 : (0 <= 0 < ntiles (one src))%Z) by (rewrite one_n by assumption; lia).
      change (t_shape (one src)) with (ti_shape src).
      rewrite <- (Rsum_by_tiles (one src) (fun idx => elem s (one src) idx * elem s (one src) idx)) by assumption.
      rewrite one_n by assumption. change 1%Z with (0 + 1)%Z. rewrite Rsum_succ by lia. change (Rsum 0 ?f) with 0. rewrite Rplus_0_l.
      cbn [o_sqrt Rops]. change (zn [?x] 0%Z) with x. f_equal.
      rewrite one_tsz by assumption. pose proof (tsz_pos _ _ W Hi0) as Hp. rewrite one_tsz in Hp by assumption.
      rewrite <- (dot_R (ti_nelems src)) by lia. unfold ssqv. apply fold_left_ext. intros a o Ho. apply zrange_In in Ho.
      assert (Ho' : (0 <= o < tsz (one src) 0)%Z) by (rewrite one_tsz; assumption).
      destruct (eidx_spec (one src) 0 o W Hi0 Ho') as (I1 & I2 & I3). unfold elem. rewrite I2, I3, one_th. reflexivity.
    + intros h Hh. apply L2. intros ->. apply (Hh (one dst)); left; reflexivity.
Qed.

(** nrm2 on tiles, every branch: dst = sqrt((beta*dst)^2 + alpha^2 * sum src^2). *)
Theorem C45_tile_nrm2 (alpha beta : R) (src dst tmp : tile) (s : store R) : wf_tile src -> wf_tile dst -> wf_tile tmp ->
  (ti_shape dst = [] -> ti_shape tmp = [] -> ti_h src <> ti_h dst -> ti_h src <> ti_h tmp -> ti_h tmp <> ti_h dst ->
   stored KF s (one src) -> stored KF s (one dst) -> stored KF s (one tmp) ->
   runs (tile_nrm2 alpha src beta dst tmp) s (fun s' =>
     elem s' (one dst) [] = sqrt ((beta * elem s (one dst) []) * (beta * elem s (one dst) []) +
        alpha * alpha * Rsuml (all_idx (ti_shape src)) (fun idx => elem s (one src) idx * elem s (one src) idx)) /\
     frame [one dst; one tmp] s s')) /\
  (ti_shape dst <> [] \/ ti_shape tmp <> [] -> throws (tile_nrm2 alpha src beta dst tmp)).
Proof.
  intros H1 H2 H3. split.
  - intros E1 E2 N1 N2 N3 S1 S2 S3.
    assert (D1 : ti_ndim dst = 0%Z) by (rewrite ti_ndim_eq, E1 by assumption; reflexivity).
    assert (D2 : ti_ndim tmp = 0%Z) by (rewrite ti_ndim_eq, E2 by assumption; reflexivity).
    destruct (o_eqb beta o_zero) eqn:Eb.
    + unfold tile_nrm2. rewrite D1, D2, Eb. cbn [Z.eqb negb throw_if]. apply Reqb_true in Eb.
      cbn [o_zero Rops] in Eb. subst beta.
      assert (Sq : 0 <= Rsuml (all_idx (ti_shape src)) (fun idx => elem s (one src) idx * elem s (one src) idx)).
      { apply Rsuml_nonneg. intros. apply Rle_0_sqr. }
      destruct (o_eqb alpha o_zero) eqn:Ea.
      * apply Reqb_true in Ea. cbn [o_zero Rops] in Ea. subst alpha. change (Ok [clear_submit (ti_h dst)]) with (tile_clear (T := R) dst).
        rewrite <- tile_clear_one by assumption.
        eapply runs_weaken; [apply C12_clear; [apply one_wft|]; assumption|].
        intros s' _ [L1 L2]. split.
        -- rewrite L1 by (change (t_shape (one dst)) with (ti_shape dst); rewrite E1; constructor).
           cbn [o_zero Rops]. replace (_ + _) with 0 by ring. symmetry. apply sqrt_0.
        -- eapply frame_weaken; [|eassumption]. intros t [<-|[]]. left. reflexivity.
      * destruct (o_eqb alpha o_one) eqn:Ea1.
        -- apply Reqb_true in Ea1. cbn [o_one Rops] in Ea1. subst alpha.
           eapply runs_weaken; [apply (nrm2_task_runs src dst s); assumption|]. intros s' _ [-> L2]. split.
           ++ f_equal. ring.
           ++ eapply frame_weaken; [|eassumption]. intros t [<-|[]]. left. reflexivity.
        -- change (runs (then_ (Ok [nrm2_submit (ti_nelems src) (ti_h src) (ti_h dst)]) (tile_scal_inplace (o_abs alpha) dst)) s (fun s' =>
             elem s' (one dst) [] = sqrt ((0 * elem s (one dst) []) * (0 * elem s (one dst) []) +
             alpha * alpha * Rsuml (all_idx (ti_shape src)) (fun idx => elem s (one src) idx * elem s (one src) idx)) /\
             frame [one dst; one tmp] s s')).
           eapply runs_then; [apply (nrm2_task_runs src dst s); assumption|]. intros s1 Ht [K1 K2].
           rewrite <- tile_scal_inplace_one by assumption.
           eapply runs_weaken; [apply C12_scal_inplace; [apply one_wft; assumption|eapply tinv_stored; eassumption]|].
           intros s' _ [L1 L2]. split.
           ++ rewrite L1 by (change (t_shape (one dst)) with (ti_shape dst); rewrite E1; constructor). rewrite K1.
              cbn [o_abs o_mul Rops]. set (X := Rsuml _ _) in *. replace (0 * _ * (0 * _) + alpha * alpha * X) with (Rsqr alpha * X) by (unfold Rsqr; ring).
              rewrite sqrt_mult; [|apply Rle_0_sqr|assumption]. rewrite sqrt_Rsqr_abs. reflexivity.
           ++ eapply frame_weaken; [|eapply frame_trans; eassumption]. intros t [<-|[<-|[]]]; left; reflexivity.
    + destruct (tile_nrm2_async alpha src beta dst tmp H1 H2 H3 D1 D2 Eb) as [-> Hm].
      assert (Wt : wf_tile (tmp_as src tmp)) by apply tmp_as_wf.
      eapply runs_weaken; [apply (C25_nrm2 alpha beta (one src) (one dst) (one (tmp_as src tmp)) s); try assumption|].
      1-3: apply one_wft; assumption.
      1-3: apply one_disj; assumption.
      * apply one_stored; [assumption|]. apply one_stored in S3; [|assumption]. change (ti_h (tmp_as src tmp)) with (ti_h tmp).
        rewrite S3. f_equal. rewrite nil_nelems by assumption. change (ti_nelems (tmp_as src tmp)) with (prodZ (zrep (ti_ndim src) 1%Z)).
        symmetry. apply prod_zrep1.
      * intros s' _ [L1 L2]. split; [exact L1|]. intros h Hh. apply L2. intros t [<-|[<-|[]]] Hin.
        -- apply (Hh (one dst)); [left; reflexivity|assumption].
        -- apply (Hh (one tmp)); [right; left; reflexivity|exact Hin].
  - intros [E|E]; unfold tile_nrm2.
    + assert (D1 : ti_ndim dst <> 0%Z) by (intros D; apply E, tile_nil; assumption).
      destruct (Z.eqb_spec (ti_ndim dst) 0); [congruence|]. eexists. reflexivity.
    + assert (D1 : ti_ndim tmp <> 0%Z) by (intros D; apply E, tile_nil; assumption).
      destruct (Z.eqb_spec (ti_ndim tmp) 0); [congruence|]. destruct (ti_ndim dst =? 0)%Z; eexists; reflexivity.
Qed.

Local Close Scope R_scope.
Local Open Scope Z_scope.
(** ** Specification of an element-wise tile operation: the element of [x] at [idx] is entry
    [off shape idx] (Fortran order) of the buffer of its handle. *)
Section Spec.
Context {T : Type} {O : Ops T}.
Definition at_ (s : store T) (x : tile) (idx : list Z) : T := zn (fl (s (ti_h x))) (off (ti_shape x) idx).
Definition held_tile (s : store T) (x : tile) : Prop := wf_tile x /\ ty (s (ti_h x)) = (KF, prodZ (ti_shape x)).
Definition only (x : tile) (s s' : store T) : Prop := forall h, h <> ti_h x -> s' h = s h.
Definition tile_unary (op : tile -> res (list (task T))) (f : T -> T) : Prop :=
  forall A s, held_tile s A -> runs (op A) s (fun s' =>
    (forall idx, inb (ti_shape A) idx -> at_ s' A idx = f (at_ s A idx)) /\ only A s s').
Definition tile_binary (op : tile -> tile -> res (list (task T))) (f : T -> T -> T) : Prop :=
  forall src dst s, held_tile s src -> held_tile s dst ->
    (ti_shape src = ti_shape dst -> ti_h src <> ti_h dst -> runs (op src dst) s (fun s' =>
      (forall idx, inb (ti_shape dst) idx -> at_ s' dst idx = f (at_ s src idx) (at_ s dst idx)) /\ only dst s s')) /\
    (ti_shape src <> ti_shape dst -> throws (op src dst)).
Definition tile_ternary (op : tile -> tile -> tile -> res (list (task T))) (f : T -> T -> T -> T) : Prop :=
  forall x y dst s, held_tile s x -> held_tile s y -> held_tile s dst ->
    (ti_shape x = ti_shape dst -> ti_shape y = ti_shape dst -> ti_h x <> ti_h dst -> ti_h y <> ti_h dst ->
     runs (op x y dst) s (fun s' =>
      (forall idx, inb (ti_shape dst) idx -> at_ s' dst idx = f (at_ s x idx) (at_ s y idx) (at_ s dst idx)) /\ only dst s s')) /\
    (ti_shape x <> ti_shape dst \/ ti_shape y <> ti_shape dst -> throws (op x y dst)).

Lemma held_one s x : held_tile s x -> stored KF s (one x).
Proof.
  intros [H E]. apply one_stored; [assumption|]. rewrite E. f_equal. rewrite <- one_tsz by assumption. unfold tsz. rewrite one_tsh by assumption. reflexivity.
Qed.
Lemma at_one s x idx : wf_tile x -> inb (ti_shape x) idx -> elem s (one x) idx = at_ s x idx.
Proof.
  intros H Hi. unfold elem, at_. pose proof (one_wf x H) as W. pose proof (one_n x H) as N.
  rewrite (one_etile (one x) W N idx) by exact Hi. rewrite one_th. f_equal. rewrite (one_eoff (one x) W N idx) by exact Hi. reflexivity.
Qed.
Lemma only_frame x s s' : frame [one x] s s' -> only x s s'.
Proof. intros H h Hh. apply H. intros t [<-|[]] [E|[]]. congruence. Qed.

(** Results of the tensor operation on one-tile tensors carry over to the tile operation. *)
Lemma agree_runs {A} (r1 r2 : res (list (task A))) s P : agree r1 r2 -> runs r2 s P -> runs r1 s P.
Proof. intros [->|[_ [m E]]] H; [assumption|]. destruct H as (ts & E' & _). congruence. Qed.
Lemma agree_throws {A} (r1 r2 : res A) : agree r1 r2 -> throws r2 -> throws r1.
Proof. intros [->|[H _]] ?; assumption. Qed.
Lemma agree_sym {A} (r1 r2 : res A) : agree r1 r2 -> agree r2 r1.
Proof. intros [->|[? ?]]; [apply agree_refl|right; auto]. Qed.

Lemma tile_unary_from top op f : (forall A, wf_tile A -> op (one A) = top A) -> unary_elementwise op f -> tile_unary top f.
Proof.
  intros He Hu A s HA. pose proof (proj1 HA) as WA. rewrite <- He by assumption.
  eapply runs_weaken; [apply Hu; [apply one_wft; assumption|apply held_one; assumption]|].
  intros s' _ [H1 H2]. split; [|apply only_frame; assumption]. intros idx Hi.
  rewrite <- !at_one by assumption. apply H1. exact Hi.
Qed.
Lemma tile_binary_from top op f : (forall A B, wf_tile A -> wf_tile B -> agree (top A B) (op (one A) (one B))) ->
  binary_elementwise op f -> tile_binary top f.
Proof.
  intros He Hu A B s HA HB. pose proof (proj1 HA) as WA. pose proof (proj1 HB) as WB.
  destruct (Hu (one A) (one B) s (one_wft _ WA) (one_wft _ WB)) as [G1 G2]. split.
  - intros E N. eapply agree_runs; [apply He; assumption|].
    eapply runs_weaken; [apply G1; [split; exact E|apply held_one; assumption..|apply one_disj; assumption]|].
    intros s' _ [H1 H2]. split; [|apply only_frame; assumption]. intros idx Hi.
    rewrite <- !at_one by (assumption || rewrite E; assumption). apply H1. exact Hi.
  - intros E. eapply agree_throws; [apply He; assumption|]. apply G2. intros [E' _]. apply E. exact E'.
Qed.
Lemma tile_ternary_from top op f :
  (forall A B C, wf_tile A -> wf_tile B -> wf_tile C -> agree (top A B C) (op (one A) (one B) (one C))) ->
  ternary_elementwise op f -> tile_ternary top f.
Proof.
  intros He Hu A B C s HA HB HC. pose proof (proj1 HA) as WA. pose proof (proj1 HB) as WB. pose proof (proj1 HC) as WC.
  destruct (Hu (one A) (one B) (one C) s (one_wft _ WA) (one_wft _ WB) (one_wft _ WC)) as [G1 G2]. split.
  - intros E1 E2 N1 N2. eapply agree_runs; [apply He; assumption|].
    eapply runs_weaken; [apply G1; [split; exact E1|split; exact E2|apply held_one; assumption..|apply one_disj; assumption|apply one_disj; assumption]|].
    intros s' _ [H1 H2]. split; [|apply only_frame; assumption]. intros idx Hi.
    rewrite <- (at_one s' C), <- (at_one s C) by assumption. rewrite <- (at_one s A) by (try rewrite E1; assumption).
    rewrite <- (at_one s B) by (try rewrite E2; assumption). apply H1. exact Hi.
  - intros E. eapply agree_throws; [apply He; assumption|]. apply G2. destruct E as [E|E]; [left|right]; intros [E' _]; apply E; exact E'.
Qed.
End Spec.

Section Elem.
Context {T : Type} {O : Ops T}.
Local Open Scope ops_scope.
(** ** C45: element-wise tile operations compute the same formulas as the tensor operations, for every shape. *)
Theorem C45_tile_unary :
  tile_unary (T := T) tile_relu f_relu /\ tile_unary tile_drelu f_drelu /\ tile_unary tile_gelu f_gelu /\
  tile_unary tile_dgelu f_dgelu /\ tile_unary tile_gelutanh_inplace f_gelutanh_inplace /\ tile_unary tile_dgelutanh f_dgelutanh /\
  tile_unary tile_sqrt_inplace o_sqrt /\ tile_unary tile_clear (fun _ => o_zero) /\
  (forall v, tile_unary (tile_fill v) (fun _ => v)) /\ (forall a e, tile_unary (tile_pow a e) (f_pow a e)) /\
  (forall a, tile_unary (tile_scal_inplace a) (fun x => a * x)).
Proof.
  split; [|split; [|split; [|split; [|split; [|split; [|split; [|split; [|split; [|split]]]]]]]]]; intros; eapply tile_unary_from.
  - exact tile_relu_one.
  - exact C12_relu.
  - exact tile_drelu_one.
  - exact C12_drelu.
  - exact tile_gelu_one.
  - exact C12_gelu.
  - exact tile_dgelu_one.
  - exact C12_dgelu.
  - exact tile_gelutanh_inplace_one.
  - exact C12_gelutanh_inplace.
  - exact tile_dgelutanh_one.
  - exact C12_dgelutanh.
  - exact tile_sqrt_inplace_one.
  - exact C12_sqrt_inplace.
  - exact tile_clear_one.
  - exact C12_clear.
  - intros A HA. apply (tile_fill_one v A HA).
  - apply C12_fill.
  - intros A HA. apply (tile_pow_one a e A HA).
  - apply C12_pow.
  - intros A HA. apply (tile_scal_inplace_one a A HA).
  - apply C12_scal_inplace.
Qed.
Theorem C45_tile_binary :
  tile_binary (T := T) tile_relu_forward (fun x _ => f_relu x) /\ tile_binary tile_prod (fun x d => d * x) /\
  tile_binary tile_maximum (fun x d => o_fmax x d) /\ tile_binary tile_copy (fun x _ => x) /\
  (forall a, tile_binary (tile_axpy a) (fun x d => a * x + d)) /\
  tile_ternary tile_relu_backward (fun x dy dx => if o_zero <? x then dx + dy else dx) /\
  tile_ternary tile_gelu_backward (fun x dy dx => dx + f_dgelu x * dy) /\
  tile_ternary tile_gelutanh_backward (fun x dy dx => if o_isinf (o_exp (x * (g3 + g4 * (x * x)))) then dx else dx + f_dgelutanh x * dy).
Proof.
  split; [|split; [|split; [|split; [|split; [|split; [|split]]]]]]; intros; first [eapply tile_binary_from|eapply tile_ternary_from].
  - exact tile_relu_forward_one.
  - exact C12_relu_forward.
  - exact tile_prod_one.
  - exact C12_prod.
  - exact tile_maximum_one.
  - exact C12_maximum.
  - exact tile_copy_one.
  - exact C12_copy.
  - intros A B HA HB. apply (tile_axpy_one a A B HA HB).
  - apply C14_axpy.
  - exact tile_relu_backward_one.
  - exact C12_relu_backward.
  - exact tile_gelu_backward_one.
  - exact C12_gelu_backward.
  - exact tile_gelutanh_backward_one.
  - exact C12_gelutanh_backward.
Qed.
End Elem.

Local Open Scope R_scope.
(** over the reals (alpha = 0 with beta other than 0 and 1 is excluded for add: see C13) *)
Theorem C45_tile_scaled (alpha beta : R) :
  tile_binary (tile_scal alpha) (fun x _ => alpha * x) /\
  (~ (alpha = 0 /\ beta <> 0 /\ beta <> 1) ->
   tile_binary (fun src dst => tile_add alpha src beta dst) (fun x d => alpha * x + beta * d)).
Proof.
  split; [|intros H].
  - apply (tile_binary_from _ (scal_async alpha)); [|apply C14_scal]. intros A B HA HB. apply tile_scal_one; assumption.
  - apply (tile_binary_from _ (fun src dst => add_async alpha src beta dst)); [|apply C13_add_partial; assumption].
    intros A B HA HB. apply tile_add_one; assumption.
Qed.

(** ** C45: the operations with an axis, gemm and the losses submit exactly the tasks of the tensor
    operation on the one-tile tensors (or both throw), so all results about the tensor operations
    (C16-C28, C30-C33) hold for tiles: [agree_runs], [agree_throws]. *)
Local Close Scope R_scope.
Local Open Scope Z_scope.
Section Agree.
Context {T : Type} {O : Ops T}.
Theorem C45_tile_slices (al be : T) (axis : Z) (x y z : tile) : wf_tile x -> wf_tile y -> wf_tile z ->
  agree (tile_add_slice al x be y axis) (add_slice_async al (one x) be (one y) axis) /\
  agree (tile_add_slice3 al x be y z axis) (add_slice3_async al (one x) be (one y) (one z) axis) /\
  agree (tile_prod_slice x al y axis) (prod_slice_async (one x) al (one y) axis) /\
  agree (tile_sum_slice al x be y axis) (sum_slice_async al (one x) be (one y) axis false) /\
  agree (tile_norm_slice al x be y axis) (norm_slice_async al (one x) be (one y) axis false) /\
  agree (tile_sumprod_slice al x y be z axis) (sumprod_slice_async al (one x) (one y) be (one z) axis false).
Proof.
  intros Hx Hy Hz.
  split; [apply tile_add_slice_one; assumption|]. split; [apply tile_add_slice3_one; assumption|].
  split; [apply tile_prod_slice_one; assumption|]. split; [apply tile_sum_slice_one; assumption|].
  split; [apply tile_norm_slice_one; assumption|]. apply tile_sumprod_slice_one; assumption.
Qed.
Theorem C45_tile_fibers (al be : T) (axis batch : Z) (redux : bool) (x y z : tile) : wf_tile x -> wf_tile y -> wf_tile z ->
  agree (tile_add_fiber al x be y axis batch) (add_fiber_async al (one x) be (one y) axis batch) /\
  agree (tile_sum_fiber al x be y axis batch) (sum_fiber_async al (one x) be (one y) axis batch redux) /\
  agree (tile_prod_fiber x al y axis) (prod_fiber_async (one x) al (one y) axis) /\
  agree (tile_prod_fiber3 x al y z axis) (prod_fiber3_async (one x) al (one y) (one z) axis) /\
  agree (tile_sumprod_fiber al x y be z axis) (sumprod_fiber_async al (one x) (one y) be (one z) axis redux).
Proof.
  intros Hx Hy Hz.
  split; [apply tile_add_fiber_one; assumption|]. split; [apply tile_sum_fiber_one; assumption|].
  split; [apply tile_prod_fiber_one; assumption|]. split; [apply tile_prod_fiber3_one; assumption|].
  apply tile_sumprod_fiber_one; assumption.
Qed.
Theorem C45_tile_softmax (al : T) (axis l : Z) (x y z : tile) : wf_tile x -> wf_tile y -> wf_tile z ->
  agree (tile_maxsumexp (T := T) x y axis) (maxsumexp_async (one x) (one y) axis false) /\
  agree (tile_softmax x y al z axis) (softmax_async (one x) (one y) al (one z) axis) /\
  agree (tile_softmax_inplace x al y axis) (softmax_inplace_async (one x) al (one y) axis) /\
  agree (tile_logsumexp (T := T) x y) (logsumexp_async (one x) (one y)) /\
  agree (tile_normalize x y z l al axis) (normalize_async (one x) (one y) (one z) l al axis) /\
  agree (ts <- tile_sumnorm (T := T) x y axis ;; cs <- tile_clear y ;; Ok (cs ++ ts)) (sumnorm_async (one x) (one y) axis).
Proof.
  intros Hx Hy Hz.
  split; [apply tile_maxsumexp_one; assumption|]. split; [apply tile_softmax_one; assumption|].
  split; [apply tile_softmax_inplace_one; assumption|]. split; [apply tile_logsumexp_one; assumption|].
  split; [apply tile_normalize_one; assumption|]. apply tile_sumnorm_one; assumption.
Qed.
Theorem C45_tile_losses (al : T) (w x y z : tile) : wf_tile w -> wf_tile x -> wf_tile y -> wf_tile z ->
  agree (tile_subtract_indexed_outputs al x y) (subtract_indexed_outputs_async al (one x) (one y)) /\
  agree (tile_total_sum_accum al w x y z) (total_sum_accum_async al (one w) (one x) (one y) (one z)) /\
  (0 < ti_ndim y -> ti_shape x = firstn (Z.to_nat (ti_ndim y - 1)) (ti_shape y) ->
   tile_mask_scalar x al y = mask_scalar_async (one x) al (one y) 1).
Proof.
  intros Hw Hx Hy Hz. split; [apply tile_subtract_one; assumption|]. split; [apply tile_total_sum_accum_one; assumption|].
  intros. apply tile_mask_scalar_one; assumption.
Qed.
Theorem C45_tile_optimizers (i : Z) (b1 b2 e lr wd : T) (g m v p : tile) : wf_tile g -> wf_tile m -> wf_tile v -> wf_tile p ->
  agree (tile_adam_step i b1 b2 e lr wd g m v p) (adam_step_async i b1 b2 e lr wd (one g) (one m) (one v) (one p)) /\
  agree (tile_adamw_step i b1 b2 e lr wd g m v p) (adamw_step_async i b1 b2 e lr wd (one g) (one m) (one v) (one p)) /\
  agree (tile_addcdiv b1 e g m p) (addcdiv_async b1 e (one g) (one m) (one p)) /\
  agree (tile_hypot b1 g b2 p) (hypot_async b1 (one g) b2 (one p)) /\
  add_scalar_async b1 b2 (one p) = tile_add_scalar b1 b2 p /\
  agree (tile_axpy_tensor (T := T) m g p) (axpy_tensor_async (one m) (one g) (one p)).
Proof.
  intros Hg Hm Hv Hp. split; [apply tile_adam_step_one; assumption|]. split; [apply tile_adamw_step_one; assumption|].
  split; [apply tile_addcdiv_one; assumption|]. split; [apply tile_hypot_one; assumption|].
  split; [apply tile_add_scalar_one; assumption|]. apply tile_axpy_tensor_one; assumption.
Qed.
Theorem C45_tile_gemm_agrees (al : T) tA A tB B (be : T) C ndim b : wf_tile A -> wf_tile B -> wf_tile C -> 0 < ndim ->
  agree (tile_gemm al tA A tB B be C ndim b) (gemm_async al tA (one A) tB (one B) be (one C) ndim b false).
Proof. apply tile_gemm_one. Qed.

(** Two tile operations that look the same as their tensor counterparts but check nothing. *)
Lemma wloop_ub (n : Z) (src dst : list T) (f : T -> T) : zlen src = n -> zlen dst < n ->
  for_ 0 n (fun i d => s <- rd src i ;; wr d i (f s)) dst = UB.
Proof.
  intros Hs. assert (G : forall k lo d, 0 <= lo -> zlen d = lo + Z.of_nat k -> zlen d < n ->
    for_ lo n (fun i d => s <- rd src i ;; wr d i (f s)) d = UB).
  { induction k as [|k IH]; intros lo d Hlo El Hd; rewrite for_head by lia; rewrite rd_ok by lia; bnd.
    - rewrite wr_oob by lia. reflexivity.
    - destruct (wr_ok d lo (f (zn src lo))) as (d' & E & L & _); [lia|]. rewrite E. bnd. apply IH; lia. }
  intros Hd. apply (G (Z.to_nat (zlen dst)) 0 dst); [lia| |assumption]. pose proof (zlen_nonneg dst). lia.
Qed.

(** tile::gelutanh and tile::sqrt: equal shapes give the formula; with a shorter dst the call is
    accepted and the task writes out of bounds, where the tensor operation throws. *)
Theorem C45_tile_unchecked_ok (f : T -> T) (op : tile -> tile -> res (list (task T))) :
  (op = tile_sqrt /\ f = o_sqrt) \/ (op = tile_gelutanh /\ f = f_gelutanh) ->
  forall src dst s, held_tile s src -> held_tile s dst -> ti_shape src = ti_shape dst -> ti_h src <> ti_h dst ->
  runs (op src dst) s (fun s' =>
    (forall idx, inb (ti_shape dst) idx -> at_ s' dst idx = f (at_ s src idx)) /\ only dst s s').
Proof.
  intros Hop src dst s H1 H2 E N. pose proof (proj1 H1) as W1. pose proof (proj1 H2) as W2.
  assert (G : forall opt, op src dst = opt (one src) (one dst) -> binary_elementwise opt (fun x _ => f x) ->
    runs (op src dst) s (fun s' => (forall idx, inb (ti_shape dst) idx -> at_ s' dst idx = f (at_ s src idx)) /\ only dst s s')).
  { intros opt Eo Hb. destruct (Hb (one src) (one dst) s (one_wft _ W1) (one_wft _ W2)) as [G1 _]. rewrite Eo.
    eapply runs_weaken; [apply G1; [split; exact E|apply held_one; assumption..|apply one_disj; assumption]|].
    intros s' _ [K1 K2]. split; [|apply only_frame; assumption]. intros idx Hi.
    rewrite <- !at_one by (assumption || rewrite E; assumption). apply K1. exact Hi. }
  destruct Hop as [[-> ->]|[-> ->]]; [apply (G sqrt_async); [|apply C12_sqrt]|apply (G gelutanh_async); [|apply C12_gelutanh]];
    symmetry; unfold sqrt_async, gelutanh_async; rewrite check_loop_same by (auto); apply tiles2_one; assumption.
Qed.
Theorem C45_tile_unchecked_refuted (op : tile -> tile -> res (list (task T))) (opt : tensor -> tensor -> res (list (task T))) :
  (op = tile_sqrt /\ opt = sqrt_async) \/ (op = tile_gelutanh /\ opt = gelutanh_async) ->
  forall src dst s P, held_tile s src -> held_tile s dst -> prodZ (ti_shape dst) < prodZ (ti_shape src) ->
  throws (opt (one src) (one dst)) /\ (exists ts, op src dst = Ok ts) /\ ~ runs (op src dst) s P.
Proof.
  intros Hop src dst s P [W1 T1] [W2 T2] Hlt. split; [|split].
  - destruct Hop as [[_ ->]|[_ ->]]; unfold sqrt_async, gelutanh_async; apply check_loop_diff; auto; intros Heq; rewrite Heq in Hlt; lia.
  - destruct Hop as [[-> _]|[-> _]]; eexists; reflexivity.
  - apply ty_BF in T1 as (a & Ea & La). apply ty_BF in T2 as (d & Ed & Ld).
    assert (En : ti_nelems src = prodZ (ti_shape src)) by (rewrite <- one_tsz by assumption; unfold tsz; rewrite one_tsh by assumption; reflexivity).
    destruct Hop as [[-> _]|[-> _]]; (eapply not_runs; [reflexivity|]); unfold exec_task, sqrt_submit, gelutanh_submit;
      cbn [t_acc t_body map in_buf reads fst snd]; rewrite Ea, Ed; cbn [wrap2]; unfold k_sqrt, k_gelutanh; cbv zeta;
      rewrite En.
    + rewrite (wloop_ub _ a d o_sqrt) by lia. reflexivity.
    + match goal with |- context [for_ 0 _ ?b d] => change b with (fun i v => z <- rd a i ;; wr v i (f_gelutanh z)) end.
      rewrite (wloop_ub _ a d f_gelutanh) by lia. reflexivity.
Qed.
(** tile::mask_scalar of a 0-dimensional tile indexes its shape at -1; the tensor operation throws or
    needs one more dimension; tile::gemm refuses ndim = 0, which the tensor operation accepts. *)
Theorem C45_tile_mask_gemm_refuted (al : T) (mask A : tile) : wf_tile A -> ti_shape A = [] ->
  tile_mask_scalar mask al A = UB /\
  (forall tA tB be, throws (tile_gemm al tA A tB A be A 0 0)) /\
  (forall tA tB be, exists ts, gemm_async al tA (one A) tB (one A) be (one A) 0 0 false = Ok ts).
Proof.
  intros HA E. assert (En : ti_ndim A = 0) by (rewrite ti_ndim_eq, E by assumption; reflexivity). split; [|split].
  - unfold tile_mask_scalar. rewrite En. reflexivity.
  - intros. eexists. reflexivity.
  - intros tA tB be. destruct A as [tt h]. unfold wf_tile, ti_shape, ti_tt in *. cbn [fst snd] in *. rewrite E in HA.
    vm_compute in HA. injection HA as <-. destruct tA, tB; eexists; reflexivity.
Qed.
End Agree.

Local Open Scope R_scope.
(** gemm on tiles: C := beta*C + alpha*op(A)*op(B), for all shapes split as in C28. *)
Theorem C45_tile_gemm (alpha beta : R) tA tB (A B C : tile) s sm sk sn sb : held_tile s A -> held_tile s B -> held_tile s C ->
  ti_shape A = op_dims tA sm sk sb -> ti_shape B = op_dims tB sk sn sb -> ti_shape C = sm ++ sn ++ sb ->
  (0 < zlen sk)%Z -> ti_h A <> ti_h C -> ti_h B <> ti_h C ->
  runs (tile_gemm alpha tA A tB B beta C (zlen sk) (zlen sb)) s (fun s' =>
    (forall mi ni bi, inb sm mi -> inb sn ni -> inb sb bi ->
       at_ s' C (mi ++ ni ++ bi) = beta * at_ s C (mi ++ ni ++ bi) +
         alpha * Rsuml (all_idx sk) (fun ki => at_ s A (op_dims tA mi ki bi) * at_ s B (op_dims tB ki ni bi))) /\
    only C s s').
Proof.
  intros HA HB HC E1 E2 E3 Hk N1 N2. pose proof (proj1 HA) as WA. pose proof (proj1 HB) as WB. pose proof (proj1 HC) as WC.
  eapply agree_runs; [apply C45_tile_gemm_agrees; assumption|].
  eapply runs_weaken; [apply (C28_gemm alpha beta tA tB (one A) (one B) (one C) (zlen sk) (zlen sb) s sm sk sn sb sm sk sn sb);
    try (apply one_wft; assumption); try assumption; try reflexivity; try (apply held_one; assumption); apply one_disj; assumption|].
  intros s' _ [K1 K2]. split; [|apply only_frame; assumption]. intros mi ni bi I1 I2 I3.
  assert (IC : inb (ti_shape C) (mi ++ ni ++ bi)) by (rewrite E3; auto using inb_app).
  rewrite <- !(at_one _ C) by assumption. rewrite K1 by assumption. f_equal. f_equal. apply Rsuml_ext. intros ki Hki.
  assert (Pk : pos sk) by (pose proof (one_pos A WA) as P; rewrite E1 in P; unfold op_dims in P; destruct tA;
    apply pos_app in P as [P _]; apply pos_app in P as [? ?]; assumption).
  apply all_idx_In in Hki; [|assumption].
  rewrite !at_one; try assumption; [reflexivity|rewrite E2|rewrite E1]; unfold op_dims; destruct tA, tB; repeat apply inb_app; assumption.
Qed.

(** ** The hypotheses are satisfiable *)
Definition ext_A : tile := (tt_of [2; 3]%Z, 0%Z).
Definition ext_B : tile := (tt_of [3; 4]%Z, 1%Z).
Definition ext_C : tile := (tt_of [2; 4]%Z, 2%Z).
Definition ext_s : store R := put (one ext_A) (fun i => IZR (zn i 0 + zn i 1)) (put (one ext_B) (fun i => IZR (zn i 0 - zn i 1))
  (put (one ext_C) (fun _ => 7) (fun _ => BF []))).
Lemma ext_wf : wf_tile ext_A /\ wf_tile ext_B /\ wf_tile ext_C.
Proof. split; [|split]; reflexivity. Qed.
Lemma ext_held : held_tile ext_s ext_A /\ held_tile ext_s ext_B /\ held_tile ext_s ext_C.
Proof. split; [|split]; split; reflexivity. Qed.
Example ext_gemm : runs (tile_gemm 2 NoTrans ext_A NoTrans ext_B 3 ext_C 1 0) ext_s (fun s' =>
  at_ s' ext_C [1; 2]%Z = 3 * 7 + 2 * (1 * (-2) + 2 * (-1) + 3 * 0)).
Proof.
  destruct ext_held as (HA & HB & HC).
  eapply runs_weaken; [apply (C45_tile_gemm 2 3 NoTrans NoTrans ext_A ext_B ext_C ext_s [2]%Z [3]%Z [4]%Z []); try assumption; try reflexivity; discriminate|].
  intros s' _ [K _]. specialize (K [1]%Z [2]%Z []). cbn [app] in K. rewrite K by (repeat constructor; lia).
  change (all_idx [3]%Z) with [[0]; [1]; [2]]%Z. cbn [Rsuml fold_right op_dims app].
  assert (E0 : at_ ext_s ext_C [1; 2]%Z = 7) by (vm_compute; reflexivity).
  assert (A0 : at_ ext_s ext_A [1; 0]%Z = 1) by (vm_compute; reflexivity).
  assert (A1 : at_ ext_s ext_A [1; 1]%Z = 2) by (vm_compute; reflexivity).
  assert (A2 : at_ ext_s ext_A [1; 2]%Z = 3) by (vm_compute; reflexivity).
  assert (B0 : at_ ext_s ext_B [0; 2]%Z = -2) by (vm_compute; reflexivity).
  assert (B1 : at_ ext_s ext_B [1; 2]%Z = -1) by (vm_compute; reflexivity).
  assert (B2 : at_ ext_s ext_B [2; 2]%Z = 0) by (vm_compute; reflexivity).
  rewrite E0, A0, A1, A2, B0, B1, B2. lra.
Qed.
Example ext_unchecked : ~ runs (tile_sqrt ext_C ext_A) ext_s (fun _ => True) /\ throws (sqrt_async (T := R) (one ext_C) (one ext_A)).
Proof.
  destruct ext_held as (HA & HB & HC).
  destruct (C45_tile_unchecked_refuted (tile_sqrt (T := R)) sqrt_async (or_introl (conj eq_refl eq_refl)) ext_C ext_A ext_s (fun _ => True) HC HA) as (H1 & _ & H3);
    [reflexivity|]. split; assumption.
Qed.
