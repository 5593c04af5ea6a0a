(** * Tile-level operations and one-tile tensors *)
From Verif Require Import Base Spec Geometry Traits TraitsProofs Runtime Ops TensorSem ElemGeneric OneOut
  KernelsElem ElemOps ElemProofs AccRuns Axis SliceOps SliceGeo SliceProofs SliceReduce FiberOps FiberGeo FiberProofs FiberReduce
  MatOps MatProofs GemmProofs SoftmaxOps PairGeo SoftmaxRuns LossOps LossRuns TotalSum RandnProofs ScatterRuns TileCopy TileOps.

(** A tile built by the constructor (include/nntile/tile/tile.hh:35-90). *)
Definition wf_tile (x : tile) : Prop := TileTraits_new (ti_shape x) = Ok (ti_tt x).

(** The tensor that consists of the tile [x] alone. *)
Definition one (x : tile) : tensor :=
  mkTensor (tn_of (ti_shape x) (ti_shape x)) [ti_tt x] [ti_h x] [0].

(** Same tasks, or both calls throw. *)
Definition agree {A} (r1 r2 : res A) : Prop := r1 = r2 \/ (throws r1 /\ throws r2).

(** ** Agreement *)
Lemma agree_refl {A} (r : res A) : agree r r.
Proof. left. reflexivity. Qed.
Lemma agree_throw {A} b m1 m2 (k1 k2 : res A) : (b = false -> agree k1 k2) -> agree (throw_if b m1 k1) (throw_if b m2 k2).
Proof. intros H. destruct b; cbn; [|auto]. right. split; eexists; reflexivity. Qed.
Lemma agree_bind {A B} (r1 r2 : res A) (k1 k2 : A -> res B) : agree r1 r2 ->
  (forall x, r2 = Ok x -> agree (k1 x) (k2 x)) -> agree (bind r1 k1) (bind r2 k2).
Proof.
  intros [->|[[m1 ->] [m2 ->]]] H.
  - destruct r2 as [x|m|]; cbn; [apply H; reflexivity|right; split; eexists; reflexivity|left; reflexivity].
  - right. split; eexists; reflexivity.
Qed.
Lemma agree_eq {A} (r1 r2 : res A) : r1 = r2 -> agree r1 r2.
Proof. left. assumption. Qed.
Lemma agree_for {S} lo hi (b1 b2 : Z -> S -> res S) s :
  (forall i s, lo <= i < hi -> agree (b1 i s) (b2 i s)) -> agree (for_ lo hi b1 s) (for_ lo hi b2 s).
Proof.
  intros H. destruct (Z.le_gt_cases hi lo) as [E|E]; [rewrite !for_empty by lia; apply agree_refl|].
  assert (G : forall n lo s, (forall i s, lo <= i < hi -> agree (b1 i s) (b2 i s)) -> hi = lo + Z.of_nat n ->
    agree (for_ lo hi b1 s) (for_ lo hi b2 s)).
  { clear. induction n as [|n IH]; intros lo s H E; [rewrite !for_empty by lia; apply agree_refl|].
    rewrite !(for_head lo hi) by lia. apply agree_bind; [apply H; lia|]. intros x _. apply IH; [|lia]. intros i t Hi. apply H. lia. }
  apply (G (Z.to_nat (hi - lo))); [assumption|lia].
Qed.
Lemma agree_op {A} (c1 c2 : res unit) (k1 k2 : unit -> res A) : agree c1 c2 ->
  (c2 = Ok tt -> k1 tt = bind c2 k2) -> agree (bind c1 k1) (bind c2 k2).
Proof.
  intros [->|[[m1 ->] [m2 ->]]] H.
  - destruct c2 as [[]|m|]; [|right; split; eexists; reflexivity|left; reflexivity].
    left. rewrite bind_Ok. apply H. reflexivity.
  - right. split; eexists; reflexivity.
Qed.
Lemma checks_inv Q r : checks Q r -> r = Ok tt -> Q.
Proof. intros [[HQ _]|[_ [m E]]] H; [assumption|congruence]. Qed.

(** ** One-tile tensors *)
Lemma ztab_1 {A} (f : Z -> A) : ztab 1 f = [f 0].
Proof. reflexivity. Qed.
Section One.
Variable x : tile.
Hypothesis Hx : wf_tile x.
Notation S := (ti_shape x).

Lemma one_pos : pos S.
Proof. exact (proj1 (TileTraits_new_inv _ _ Hx)). Qed.
Lemma one_tt : ti_tt x = tt_of S.
Proof. exact (proj2 (TileTraits_new_inv _ _ Hx)). Qed.
Lemma one_shape : t_shape (one x) = S.
Proof. reflexivity. Qed.
Lemma one_base : t_base (one x) = S.
Proof. reflexivity. Qed.
Lemma ti_ndim_eq : ti_ndim x = zlen S.
Proof. unfold ti_ndim. rewrite one_tt. reflexivity. Qed.
Lemma one_ndim : t_ndim (one x) = ti_ndim x.
Proof. rewrite ti_ndim_eq. reflexivity. Qed.
Lemma one_gridZ : gridZ (t_shape (one x)) (t_base (one x)) = zrep (zlen S) 1.
Proof. apply grid_self. apply one_pos. Qed.
Lemma one_n : ntiles (one x) = 1.
Proof. unfold ntiles. rewrite one_gridZ. apply prod_zrep1. Qed.
Lemma one_tsh : tsh (one x) 0 = S.
Proof.
  unfold tsh. rewrite one_gridZ, one_shape, one_base. pose proof (zlen_nonneg S) as N.
  assert (U : unoff (zrep (zlen S) 1) 0 = zrep (zlen S) 0).
  { apply list_ext; [rewrite zlen_unoff, !zlen_zrep by lia; reflexivity|]. rewrite zlen_unoff, zlen_zrep by lia. intros k Hk.
    rewrite zn_unoff; [|apply Forall_forall; intros y Hy; apply repeat_spec in Hy; lia|lia|rewrite zlen_zrep by lia; lia].
    rewrite !zn_zrep by lia. rewrite Z.mod_1_r. reflexivity. }
  rewrite U. apply list_ext; [rewrite zlen_tshape; rewrite ?zlen_zrep by lia; reflexivity|].
  rewrite zlen_tshape by (rewrite ?zlen_zrep by lia; reflexivity). intros k Hk.
  rewrite zn_tshape; [|reflexivity|rewrite zlen_zrep by lia; reflexivity|lia]. rewrite zn_zrep by lia. lia.
Qed.
Lemma one_wf : wft (one x).
Proof.
  split; [reflexivity|exact one_pos|exact one_pos|reflexivity| | |].
  - rewrite one_n. change (ztab 1 (fun i => tt_of (tsh (one x) i))) with [tt_of (tsh (one x) 0)]. rewrite one_tsh.
    cbn [one tile_traits]. rewrite one_tt. reflexivity.
  - rewrite one_n. reflexivity.
  - cbn. constructor; [intros []|constructor].
Qed.
Lemma one_nt : t_ntiles (one x) = 1.
Proof. rewrite t_ntiles_eq by exact one_wf. exact one_n. Qed.
Lemma one_th : th (one x) 0 = ti_h x.
Proof. reflexivity. Qed.
Lemma one_handle : get_tile_handle (one x) 0 = Ok (ti_h x).
Proof. reflexivity. Qed.
Lemma one_traits : get_tile_traits (one x) 0 = Ok (ti_tt x).
Proof. reflexivity. Qed.
Lemma one_tsz : tsz (one x) 0 = ti_nelems x.
Proof. unfold tsz. rewrite one_tsh. unfold ti_nelems. rewrite one_tt. reflexivity. Qed.

(** The tensor constructor builds exactly this tensor when the base tile is the whole shape. *)
Lemma one_is_constructed : exists t, TensorTraits_new S S = Ok t /\
  Tensor_new t [0] (ti_h x) = Ok (one x, [(ti_h x, ti_nelems x)]).
Proof.
  exists (tn_of S S). split; [apply TensorTraits_new_ok; auto using one_pos|].
  pose proof one_n as E. unfold ntiles in E. rewrite one_shape, one_base in E.
  pose proof (Tensor_new_ok S S [0] (ti_h x) eq_refl one_pos one_pos) as H. rewrite E in H. specialize (H eq_refl).
  cbv zeta in H. rewrite H. unfold one. rewrite one_tt at 1. unfold ti_nelems. rewrite one_tt.
  pose proof one_tsh as Et. unfold tsh in Et. rewrite one_shape, one_base in Et.
  rewrite !ztab_1, Et, Z.add_0_r. reflexivity.
Qed.
End One.

Section T.
Context {T : Type} {O : Ops T}.

Lemma agree_same {A} a b (k1 k2 : res A) : (ti_shape a = ti_shape b -> agree k1 k2) ->
  agree (same_shape a b k1) (check_same (one a) (one b) k2).
Proof.
  intros H. unfold same_shape, check_same. rewrite !one_shape, !one_base.
  destruct (list_eqb Z.eqb (ti_shape a) (ti_shape b)) eqn:E; cbn [negb throw_if].
  - apply H. apply list_eqb_Z. assumption.
  - right. split; eexists; reflexivity.
Qed.
Lemma agree_loop {A} a b (k1 k2 : res A) : wf_tile a -> wf_tile b -> agree k1 k2 ->
  agree (same_loop a b k1) (check_loop (one a) (one b) k2).
Proof.
  intros Ha Hb H. unfold same_loop, check_loop. rewrite !one_ndim, !one_shape, !one_base by assumption.
  apply agree_throw. intros _. apply agree_bind; [|intros; assumption]. apply agree_for. intros i s Hi. unfold same_dim.
  apply agree_bind; [apply agree_refl|]. intros p Ep. apply agree_bind; [apply agree_refl|]. intros q Eq.
  destruct (p =? q) eqn:E; cbn [negb throw_if]; [|right; split; eexists; reflexivity].
  rewrite Ep, Eq, !bind_Ok. rewrite E. apply agree_refl.
Qed.

Lemma for_1 {S} (body : Z -> S -> res S) s : for_ 0 1 body s = body 0 s.
Proof. rewrite for_head by lia. destruct (body 0 s) as [t|m|]; try reflexivity. Qed.
Lemma tiles1_one x (sub : Z -> handle -> task T) : wf_tile x -> tiles1 (one x) sub = Ok [sub (ti_nelems x) (ti_h x)].
Proof. intros H. unfold tiles1. rewrite one_nt, for_1 by assumption. reflexivity. Qed.
Lemma tiles2_one g a b (sub : Z -> handle -> handle -> task T) : wf_tile a ->
  tiles2 (one g) (one a) (one b) sub = Ok [sub (ti_nelems g) (ti_h a) (ti_h b)].
Proof. intros H. unfold tiles2. rewrite one_nt, for_1 by assumption. reflexivity. Qed.
Lemma tiles3_one g a b c (sub : Z -> handle -> handle -> handle -> task T) : wf_tile g ->
  tiles3 (one g) (one a) (one b) (one c) sub = Ok [sub (ti_nelems g) (ti_h a) (ti_h b) (ti_h c)].
Proof. intros H. unfold tiles3. rewrite one_nt, for_1 by assumption. reflexivity. Qed.
Lemma nelems_eq a b : wf_tile a -> wf_tile b -> ti_shape a = ti_shape b -> ti_nelems a = ti_nelems b.
Proof. intros Ha Hb E. unfold ti_nelems. rewrite (one_tt a Ha), (one_tt b Hb), E. reflexivity. Qed.
Lemma ms_one a b : wf_tile a -> wf_tile b -> ms_eqb (one a) (one b) = list_eqb Z.eqb (ti_shape a) (ti_shape b).
Proof.
  intros Ha Hb. pose proof (ms_eqb_spec _ _ (one_wf a Ha) (one_wf b Hb)) as H. rewrite !one_shape in H. rewrite <- list_eqb_Z in H.
  destruct (ms_eqb (one a) (one b)), (list_eqb Z.eqb (ti_shape a) (ti_shape b)); intuition.
Qed.

(** ** Element-wise operations *)
Ltac t1 := intros; rewrite tiles1_one by assumption; reflexivity.
Lemma tile_relu_one A : wf_tile A -> relu_async (one A) = tile_relu (T := T) A.
Proof. unfold relu_async. t1. Qed.
Lemma tile_drelu_one A : wf_tile A -> drelu_async (one A) = tile_drelu (T := T) A.
Proof. unfold drelu_async. t1. Qed.
Lemma tile_fill_one (v : T) A : wf_tile A -> fill_async v (one A) = tile_fill v A.
Proof. unfold fill_async. t1. Qed.
Lemma tile_gelu_one A : wf_tile A -> gelu_async (one A) = tile_gelu (T := T) A.
Proof. unfold gelu_async. t1. Qed.
Lemma tile_gelutanh_inplace_one A : wf_tile A -> gelutanh_inplace_async (one A) = tile_gelutanh_inplace (T := T) A.
Proof. unfold gelutanh_inplace_async. t1. Qed.
Lemma tile_dgelu_one A : wf_tile A -> dgelu_async (one A) = tile_dgelu (T := T) A.
Proof. unfold dgelu_async. t1. Qed.
Lemma tile_dgelutanh_one A : wf_tile A -> dgelutanh_async (one A) = tile_dgelutanh (T := T) A.
Proof. unfold dgelutanh_async. t1. Qed.
Lemma tile_sqrt_inplace_one A : wf_tile A -> sqrt_inplace_async (one A) = tile_sqrt_inplace (T := T) A.
Proof. unfold sqrt_inplace_async. t1. Qed.
Lemma tile_pow_one (al e : T) A : wf_tile A -> pow_async al e (one A) = tile_pow al e A.
Proof. unfold pow_async. t1. Qed.
Lemma tile_scal_inplace_one (al : T) A : wf_tile A -> scal_inplace_async al (one A) = tile_scal_inplace al A.
Proof. unfold scal_inplace_async. t1. Qed.
Lemma tile_add_scalar_one (al be : T) A : wf_tile A -> add_scalar_async al be (one A) = tile_add_scalar al be A.
Proof. intros H. unfold add_scalar_async, tile_add_scalar. rewrite tiles1_one by assumption. reflexivity. Qed.
Lemma tile_clear_one A : wf_tile A -> clear_async (one A) = tile_clear (T := T) A.
Proof. intros H. unfold clear_async. rewrite one_nt, for_1 by assumption. reflexivity. Qed.

Lemma tile_relu_forward_one a b : wf_tile a -> wf_tile b -> agree (tile_relu_forward (T := T) a b) (relu_forward_async (one a) (one b)).
Proof. intros Ha Hb. apply agree_same. intros E. apply agree_eq. rewrite tiles2_one, (nelems_eq a b) by assumption. reflexivity. Qed.
Lemma tile_prod_one a b : wf_tile a -> wf_tile b -> agree (tile_prod (T := T) a b) (prod_async (one a) (one b)).
Proof. intros Ha Hb. apply agree_same. intros E. apply agree_eq. rewrite tiles2_one by assumption. reflexivity. Qed.
Lemma tile_maximum_one a b : wf_tile a -> wf_tile b -> agree (tile_maximum (T := T) a b) (maximum_async (one a) (one b)).
Proof. intros Ha Hb. apply agree_same. intros E. apply agree_eq. rewrite tiles2_one by assumption. reflexivity. Qed.
Lemma tile_axpy_one (al : T) a b : wf_tile a -> wf_tile b -> agree (tile_axpy al a b) (axpy_async al (one a) (one b)).
Proof. intros Ha Hb. apply agree_same. intros E. apply agree_eq. rewrite tiles2_one by assumption. reflexivity. Qed.
Lemma tile_axpy_tensor_one al a b : wf_tile al -> wf_tile a -> wf_tile b ->
  agree (tile_axpy_tensor (T := T) al a b) (axpy_tensor_async (one al) (one a) (one b)).
Proof.
  intros Hl Ha Hb. apply agree_throw. intros _. apply agree_same. intros E. apply agree_eq.
  rewrite one_handle, bind_Ok, tiles2_one by assumption. reflexivity.
Qed.
Lemma tile_copy_one a b : wf_tile a -> wf_tile b -> agree (tile_copy (T := T) a b) (copy_async (one a) (one b)).
Proof. intros Ha Hb. apply agree_same. intros E. apply agree_eq. rewrite one_nt, for_1 by assumption. reflexivity. Qed.
Lemma tile_scal_one (al : T) a b : wf_tile a -> wf_tile b -> agree (tile_scal al a b) (scal_async al (one a) (one b)).
Proof. intros Ha Hb. apply agree_loop; [assumption..|]. apply agree_eq. rewrite tiles2_one by assumption. reflexivity. Qed.
Lemma tile_hypot_one (al : T) a (be : T) b : wf_tile a -> wf_tile b -> agree (tile_hypot al a be b) (hypot_async al (one a) be (one b)).
Proof. intros Ha Hb. apply agree_loop; [assumption..|]. apply agree_eq. rewrite tiles2_one by assumption. reflexivity. Qed.
Lemma tile_add_one (al : T) a (be : T) b : wf_tile a -> wf_tile b -> agree (tile_add al a be b) (add_async al (one a) be (one b)).
Proof. intros Ha Hb. apply agree_loop; [assumption..|]. apply agree_eq. rewrite tiles2_one by assumption. reflexivity. Qed.
Lemma tile_relu_backward_one a b c : wf_tile a -> wf_tile b -> wf_tile c ->
  agree (tile_relu_backward (T := T) a b c) (relu_backward_async (one a) (one b) (one c)).
Proof. intros Ha Hb Hc. do 2 (apply agree_same; intros _). apply agree_eq. rewrite tiles3_one by assumption. reflexivity. Qed.
Lemma tile_gelu_backward_one a b c : wf_tile a -> wf_tile b -> wf_tile c ->
  agree (tile_gelu_backward (T := T) a b c) (gelu_backward_async (one a) (one b) (one c)).
Proof. intros Ha Hb Hc. do 2 (apply agree_same; intros _). apply agree_eq. rewrite tiles3_one by assumption. reflexivity. Qed.
Lemma tile_gelutanh_backward_one a b c : wf_tile a -> wf_tile b -> wf_tile c ->
  agree (tile_gelutanh_backward (T := T) a b c) (gelutanh_backward_async (one a) (one b) (one c)).
Proof. intros Ha Hb Hc. do 2 (apply agree_same; intros _). apply agree_eq. rewrite tiles3_one by assumption. reflexivity. Qed.

Lemma list_eqb_sym (a b : list Z) : list_eqb Z.eqb a b = list_eqb Z.eqb b a.
Proof.
  destruct (list_eqb Z.eqb a b) eqn:E; [apply list_eqb_Z in E; subst; symmetry; apply list_eqb_Z; reflexivity|].
  destruct (list_eqb Z.eqb b a) eqn:F; [|reflexivity]. apply list_eqb_Z in F. subst.
  rewrite (proj2 (list_eqb_Z a a) eq_refl) in E. discriminate.
Qed.
Lemma tile_addcdiv_one (v e : T) n d s : wf_tile n -> wf_tile d -> wf_tile s ->
  agree (tile_addcdiv v e n d s) (addcdiv_async v e (one n) (one d) (one s)).
Proof.
  intros Hn Hd Hs. unfold tile_addcdiv, addcdiv_async, same_shape. rewrite !ms_one by assumption.
  apply agree_throw. intros _. rewrite (list_eqb_sym (ti_shape s)). apply agree_throw. intros _.
  rewrite one_nt, for_1 by assumption. apply agree_refl.
Qed.
Lemma tile_adam_step_one i (b1 b2 e l w : T) g f s p : wf_tile g -> wf_tile f -> wf_tile s -> wf_tile p ->
  agree (tile_adam_step i b1 b2 e l w g f s p) (adam_step_async i b1 b2 e l w (one g) (one f) (one s) (one p)).
Proof.
  intros Hg Hf Hs Hp. unfold tile_adam_step, adam_step_async, adam_loop, same_shape. rewrite !ms_one by assumption.
  rewrite (list_eqb_sym (ti_shape p) (ti_shape g)), (list_eqb_sym (ti_shape p) (ti_shape f)), (list_eqb_sym (ti_shape p) (ti_shape s)).
  do 3 (apply agree_throw; intros _). rewrite one_nt, for_1 by assumption. apply agree_refl.
Qed.
Lemma tile_adamw_step_one i (b1 b2 e l w : T) g f s p : wf_tile g -> wf_tile f -> wf_tile s -> wf_tile p ->
  agree (tile_adamw_step i b1 b2 e l w g f s p) (adamw_step_async i b1 b2 e l w (one g) (one f) (one s) (one p)).
Proof.
  intros Hg Hf Hs Hp. unfold tile_adamw_step, adamw_step_async, adam_loop, same_shape. rewrite !ms_one by assumption.
  rewrite (list_eqb_sym (ti_shape p) (ti_shape g)), (list_eqb_sym (ti_shape p) (ti_shape f)), (list_eqb_sym (ti_shape p) (ti_shape s)).
  do 3 (apply agree_throw; intros _). rewrite one_nt, for_1 by assumption. apply agree_refl.
Qed.
(** Without shape checks, the tile operations agree with the tensor operations on equal shapes only. *)
Lemma check_loop_same {A} a b (k : res A) : wf_tile a -> wf_tile b -> ti_shape a = ti_shape b -> check_loop (one a) (one b) k = k.
Proof.
  intros Ha Hb E. unfold check_loop. rewrite !one_ndim, !ti_ndim_eq, !one_shape, !one_base, E, Z.eqb_refl by assumption. cbn [negb throw_if].
  rewrite for_check_ok; [reflexivity|]. intros i Hi. rewrite rd_ok by lia. rewrite !bind_Ok, Z.eqb_refl. reflexivity.
Qed.
Lemma check_loop_diff {A} a b (k : res A) : wf_tile a -> wf_tile b -> ti_shape a <> ti_shape b -> throws (check_loop (one a) (one b) k).
Proof.
  intros Ha Hb N. unfold check_loop. rewrite !one_ndim, !ti_ndim_eq, !one_shape, !one_base by assumption.
  destruct (Z.eqb_spec (zlen (ti_shape a)) (zlen (ti_shape b))) as [E|E]; cbn [negb throw_if]; [|eexists; reflexivity].
  match goal with |- throws (bind (for_ 0 ?n ?bd tt) _) =>
    assert (C : checks (forall i, 0 <= i < n -> zn (ti_shape a) i = zn (ti_shape b) i) (for_ 0 n bd tt)) end.
  { apply checks_for. intros i Hi. rewrite !rd_ok by lia. rewrite !bind_Ok.
    eapply checks_iff; [|apply checks_eq; intros _; apply checks_eq; intros _; apply checks_ok]. tauto. }
  destruct C as [[C _]|[_ [m ->]]]; [|eexists; reflexivity]. exfalso. apply N. apply list_ext; [assumption|exact C].
Qed.

(** ** Slices *)
Lemma check_dim_one a i b j : check_dim (one a) i (one b) j = same_dim a i b j.
Proof.
  unfold check_dim, same_dim. rewrite !one_shape, !one_base.
  destruct (rd (ti_shape a) i) as [p|m|]; try reflexivity. rewrite !bind_Ok.
  destruct (rd (ti_shape b) j) as [q|m|]; try reflexivity. rewrite !bind_Ok. destruct (p =? q) eqn:E; [|reflexivity].
  reflexivity.
Qed.
Lemma same_one a b {A} (k1 k2 : res A) m1 m2 m3 : agree k1 k2 ->
  agree (throw_if (negb (list_eqb Z.eqb (ti_shape a) (ti_shape b))) m1 k1)
    (throw_if (negb (list_eqb Z.eqb (t_shape (one a)) (t_shape (one b)))) m2
      (throw_if (negb (list_eqb Z.eqb (t_base (one a)) (t_base (one b)))) m3 k2)).
Proof.
  intros H. rewrite !one_shape, !one_base. destruct (list_eqb Z.eqb (ti_shape a) (ti_shape b)); [assumption|].
  right. split; eexists; reflexivity.
Qed.
Ltac chk := repeat first [apply agree_refl | rewrite check_dim_one | apply same_one | apply agree_throw; intros _
  | apply agree_bind; [|intros ? _] | apply agree_for; intros].

Section Sl.
Variables (big small : tile) (axis : Z).
Hypothesis (Hb : wf_tile big) (Hs : wf_tile small).
Notation B := (one big). Notation M := (one small).
Lemma slice_check_one : agree (tile_slice_check big small axis (Ok tt)) (slice_check B M axis (Ok tt)).
Proof. unfold tile_slice_check, slice_check. rewrite !one_ndim by assumption. chk. Qed.
Hypothesis Hm : slice_match B M axis.
Lemma sg_n_one : sg_n B axis = 1.
Proof. unfold sg_n. rewrite one_gridZ by assumption. apply zn_zrep. exact (proj1 Hm). Qed.
Lemma sg_xs_one : sg_xs B M axis = [(0, 0)].
Proof. unfold sg_xs. rewrite sg_n_one, one_n by assumption. reflexivity. Qed.
Lemma sg_out_one : sg_out B M axis (0, 0) = 0.
Proof.
  pose proof (sg_bound B M axis (one_wf _ Hb) (one_wf _ Hs) Hm 0 0) as H. rewrite !one_n, sg_n_one in H by assumption. lia.
Qed.
Lemma mnk_one : ti_mnk big axis = Ok (zn (dim3 axis (ti_shape big)) 0, zn (dim3 axis (ti_shape big)) 2, zn (dim3 axis (ti_shape big)) 1).
Proof. unfold ti_mnk. rewrite one_tt by assumption. apply tile_mnk_ok. exact (proj1 Hm). Qed.
End Sl.
Ltac sl Hm H1 H2 := rewrite (sg_xs_one _ _ _ H1 H2 Hm); cbn [map fst snd]; rewrite (sg_out_one _ _ _ H1 H2 Hm), (one_tsh _ H1), (mnk_one _ _ _ H1 Hm); reflexivity.
Lemma tile_add_slice_one (al : T) src be dst axis : wf_tile src -> wf_tile dst ->
  agree (tile_add_slice al src be dst axis) (add_slice_async al (one src) be (one dst) axis).
Proof.
  intros Hs Hd. apply agree_op; [apply slice_check_one; assumption|]. intros E.
  pose proof (checks_inv _ _ (slice_check_checks _ _ axis True (Ok tt) (one_wf _ Hd) (one_wf _ Hs) (fun _ => checks_ok)) E) as [Hm _].
  transitivity (add_slice_async al (one src) be (one dst) axis); [|reflexivity].
  rewrite add_slice_submits by (assumption || apply one_wf; assumption). sl Hm Hd Hs.
Qed.
Lemma tile_prod_slice_one src (al : T) dst axis : wf_tile src -> wf_tile dst ->
  agree (tile_prod_slice src al dst axis) (prod_slice_async (one src) al (one dst) axis).
Proof.
  intros Hs Hd. apply agree_op; [apply slice_check_one; assumption|]. intros E.
  pose proof (checks_inv _ _ (slice_check_checks _ _ axis True (Ok tt) (one_wf _ Hd) (one_wf _ Hs) (fun _ => checks_ok)) E) as [Hm _].
  transitivity (prod_slice_async (one src) al (one dst) axis); [|reflexivity].
  rewrite prod_slice_submits by (assumption || apply one_wf; assumption). sl Hm Hd Hs.
Qed.
Lemma tile_add_slice3_one (al : T) src1 be src2 dst axis : wf_tile src1 -> wf_tile src2 -> wf_tile dst ->
  agree (tile_add_slice3 al src1 be src2 dst axis) (add_slice3_async al (one src1) be (one src2) (one dst) axis).
Proof.
  intros Hs H2 Hd. apply agree_op.
  { unfold add_slice3_check, tile_slice_check, slice_check, same_shape. rewrite !one_ndim by assumption. chk. }
  intros E. pose proof (checks_inv _ _ (add_slice3_checks (one src1) (one dst) axis
    (one_wf _ Hs) (one_wf _ Hd) (one src2) (one_wf _ H2)) E) as (Hm & E1 & E2).
  transitivity (add_slice3_async al (one src1) be (one src2) (one dst) axis); [|reflexivity].
  rewrite add_slice3_submits by (assumption || apply one_wf; assumption). sl Hm Hd Hs.
Qed.
Lemma tile_sum_slice_one (al : T) src be dst axis : wf_tile src -> wf_tile dst ->
  agree (tile_sum_slice al src be dst axis) (sum_slice_async al (one src) be (one dst) axis false).
Proof.
  intros Hs Hd. apply agree_op.
  { unfold slice_check2. rewrite !one_ndim by assumption. chk.  }
  intros E. pose proof (checks_inv _ _ (slice_check2_checks _ _ axis (one_wf _ Hs) (one_wf _ Hd)) E) as Hm.
  transitivity (sum_slice_async al (one src) be (one dst) axis false); [|reflexivity].
  rewrite sum_slice_submits by (assumption || apply one_wf; assumption). sl Hm Hs Hd.
Qed.
Lemma tile_norm_slice_one (al : T) src be dst axis : wf_tile src -> wf_tile dst ->
  agree (tile_norm_slice al src be dst axis) (norm_slice_async al (one src) be (one dst) axis false).
Proof.
  intros Hs Hd. apply agree_op.
  { unfold norm_slice_check. rewrite !one_ndim by assumption. chk. }
  intros E. pose proof (checks_inv _ _ (norm_slice_checks _ _ axis (one_wf _ Hs) (one_wf _ Hd)) E) as Hm.
  transitivity (norm_slice_async al (one src) be (one dst) axis false); [|reflexivity].
  rewrite norm_slice_submits by (assumption || apply one_wf; assumption). sl Hm Hs Hd.
Qed.
Lemma tile_sumprod_slice_one (al : T) src1 src2 be dst axis : wf_tile src1 -> wf_tile src2 -> wf_tile dst ->
  agree (tile_sumprod_slice al src1 src2 be dst axis) (sumprod_slice_async al (one src1) (one src2) be (one dst) axis false).
Proof.
  intros Hs H2 Hd. apply agree_op.
  { unfold sumprod_slice_check, same_shape, tile_slice_check, slice_check. rewrite !one_ndim, !one_shape by assumption. chk. }
  intros E. pose proof (checks_inv _ _ (sumprod_slice_checks _ _ _ axis (one_wf _ Hs) (one_wf _ H2) (one_wf _ Hd)) E) as [E1 Hm].
  transitivity (sumprod_slice_async al (one src1) (one src2) be (one dst) axis false); [|reflexivity].
  rewrite sumprod_slice_submits by (assumption || (symmetry; assumption) || apply one_wf; assumption). sl Hm Hs Hd.
Qed.

(** ** Fibers *)
Section Fb.
Variables (big small : tile) (axis b : Z).
Hypothesis (Hb : wf_tile big) (Hs : wf_tile small).
Notation B := (one big). Notation M := (one small).
Lemma fiber_tail_one : agree (tile_fiber_check big small axis b) (fiber_check_tail B M axis b).
Proof. unfold tile_fiber_check, fiber_check_tail. rewrite !one_ndim by assumption. chk. Qed.
Lemma fiber_tail_pos m m2 k : throw_if (negb (t_ndim M =? b + 1)) m (throw_if k m2 (fiber_check_tail B M axis b)) = Ok tt -> 0 <= b.
Proof.
  destruct (Z.eqb_spec (t_ndim M) (b + 1)) as [E|E]; cbn [negb throw_if]; [|discriminate].
  destruct k; [discriminate|]. cbn [throw_if]. unfold fiber_check_tail.
  destruct (axis <? 0); [discriminate|]. cbn [throw_if]. destruct (axis >=? _); [discriminate|]. cbn [throw_if]. unfold check_dim.
  rewrite one_ndim, ti_ndim_eq in E by assumption. rewrite one_shape.
  destruct (rd (ti_shape small) 0) as [x|mm|] eqn:Er; [|discriminate|discriminate]. intros _.
  unfold rd in Er. destruct (ti_shape small) as [|y l]; [discriminate|]. rewrite zlen_cons in E. pose proof (zlen_nonneg l). lia.
Qed.
Hypothesis Hm : fiber_match B M axis b.
Lemma fg_out_one : fg_out B M axis b 0 = 0.
Proof. pose proof (fg_bound B M axis b (one_wf _ Hb) Hm 0) as H. rewrite !one_n in H by assumption. lia. Qed.
Lemma fg_first_one : fg_first B axis b 0 = true.
Proof.
  destruct (fg_grid B M axis b (one_wf _ Hb) Hm 0) as (o0 & l & o2 & o3 & H0 & H1 & H2 & H3 & E & _ & N & _ & _ & F);
    [rewrite one_n by assumption; lia|]. rewrite one_n in N by assumption. apply F.
  set (d := dim4 axis b _) in *. generalize dependent (zn d 0). generalize dependent (zn d 1). generalize dependent (zn d 2).
  generalize dependent (zn d 3). clear. intros d3 H3 d2 H2 d1 H1 d0 H0 _ N.
  assert (P3 : 0 < d2 * d3) by nia. assert (P1 : 0 < d1 * (d2 * d3)) by nia.
  assert (d0 = 1) by nia. subst d0. assert (P : 1 = d1 * d2 * d3) by lia. assert (d2 = 1) by nia. lia.
Qed.
Lemma fib_sizes_one : let d := dim4 axis b (ti_shape big) in
  ti_mnk big axis = Ok (zn d 0, zn d 2 * zn d 3, zn d 1) /\ zn d 3 <> 0 /\ exists x, rd (tt_ms (ti_tt small)) 1 = Ok (x, zn d 3).
Proof.
  destruct (fg_sizes B M axis b (one_wf _ Hb) Hm 0) as (Q0 & Q1 & Q2 & Q3 & _ & _ & E & F);
    [rewrite one_n by assumption; lia|]. rewrite fg_out_one, !one_tsh in * by assumption. cbv zeta.
  unfold ti_mnk. rewrite !one_tt by assumption. split; [exact E|]. split; [lia|exact F].
Qed.
End Fb.
Lemma tile_add_fiber_one (al : T) src be dst axis b : wf_tile src -> wf_tile dst ->
  agree (tile_add_fiber al src be dst axis b) (add_fiber_async al (one src) be (one dst) axis b).
Proof.
  intros Hs Hd. apply agree_op.
  { unfold fiber_check. rewrite !one_ndim by assumption. apply agree_throw. intros _. apply fiber_tail_one; assumption. }
  intros E. assert (B : 0 <= b) by exact (fiber_tail_pos dst src axis b Hs _ ""%string false E).
  pose proof (checks_inv _ _ (fiber_check_checks _ _ axis b (one_wf _ Hd) (one_wf _ Hs) B) E) as Hm.
  destruct (fib_sizes_one dst src axis b Hd Hs Hm) as (E1 & N & x & E2). cbv zeta in *. cbv beta.
  transitivity (add_fiber_async al (one src) be (one dst) axis b); [|reflexivity].
  destruct (o_eqb al o_zero) eqn:Ez.
  - unfold add_fiber_async. rewrite E, bind_Ok, Ez. reflexivity.
  - rewrite add_fiber_submits by (assumption || apply one_wf; assumption). rewrite one_n by assumption. cbn [zrange map].
    change (zrange 1) with [0]. cbn [map]. rewrite fg_out_one, one_tsh, E2, bind_Ok, E1, bind_Ok, Z.div_mul by assumption. reflexivity.
Qed.
Lemma tile_sum_fiber_one (al : T) src be dst axis b redux : wf_tile src -> wf_tile dst ->
  agree (tile_sum_fiber al src be dst axis b) (sum_fiber_async al (one src) be (one dst) axis b redux).
Proof.
  intros Hs Hd. apply agree_op.
  { unfold sum_fiber_check. rewrite !one_ndim by assumption. do 2 (apply agree_throw; intros _). apply fiber_tail_one; assumption. }
  intros E. assert (B : 0 <= b) by exact (fiber_tail_pos src dst axis b Hd _ _ _ E).
  pose proof (checks_inv _ _ (sum_fiber_checks _ _ axis b (one_wf _ Hs) (one_wf _ Hd) B) E) as Hm.
  destruct (fib_sizes_one src dst axis b Hs Hd Hm) as (E1 & N & x & E2). cbv zeta in *. cbv beta.
  transitivity (sum_fiber_async al (one src) be (one dst) axis b redux); [|reflexivity].
  rewrite sum_fiber_submits by (assumption || apply one_wf; assumption). rewrite one_n by assumption.
  change (zrange 1) with [0]. cbn [map]. rewrite fg_out_one, one_tsh, E2, bind_Ok, E1, bind_Ok, Z.div_mul by assumption.
  unfold bi. rewrite (fg_first_one src dst) by assumption. reflexivity.
Qed.
Lemma fiber1_eq big small axis (k1 k2 : res unit) : wf_tile big -> agree k1 k2 ->
  agree (tile_fiber1_check big small axis k1) (fiber1_check (one big) (one small) axis k2).
Proof. intros Hb H. unfold tile_fiber1_check, fiber1_check. rewrite !one_ndim by assumption. chk. assumption. Qed.
Lemma fib0 big small axis : wf_tile big -> wf_tile small -> fiber_match (one big) (one small) axis 0 ->
  ti_mnk big axis = Ok (zn (dim4 axis 0 (ti_shape big)) 0, zn (dim4 axis 0 (ti_shape big)) 2, zn (dim4 axis 0 (ti_shape big)) 1).
Proof.
  intros Hb Hs Hm. destruct (fib_sizes_one big small axis 0 Hb Hs Hm) as (E1 & _ & _). cbv zeta in E1. rewrite E1. do 3 f_equal.
  enough (zn (dim4 axis 0 (ti_shape big)) 3 = 1) by lia. unfold dim4. rewrite Z.sub_0_r, skipn_zlen. reflexivity.
Qed.
Lemma tile_prod_fiber_one src (al : T) dst axis : wf_tile src -> wf_tile dst ->
  agree (tile_prod_fiber src al dst axis) (prod_fiber_async (one src) al (one dst) axis).
Proof.
  intros Hs Hd. apply agree_op.
  { rewrite !one_ndim by assumption. apply agree_throw. intros _. apply fiber1_eq; [assumption|apply agree_refl]. }
  intros E. pose proof (checks_inv _ _ (prod_fiber_checks _ _ axis (one_wf _ Hs) (one_wf _ Hd)) E) as Hm.
  transitivity (prod_fiber_async (one src) al (one dst) axis); [|reflexivity].
  rewrite prod_fiber_submits by (assumption || apply one_wf; assumption). rewrite one_n by assumption.
  change (zrange 1) with [0]. cbn [map]. rewrite fg_out_one, one_tsh, (fib0 dst src axis Hd Hs Hm) by assumption. reflexivity.
Qed.
Lemma tile_prod_fiber3_one src1 (al : T) src2 dst axis : wf_tile src1 -> wf_tile src2 -> wf_tile dst ->
  agree (tile_prod_fiber3 src1 al src2 dst axis) (prod_fiber3_async (one src1) al (one src2) (one dst) axis).
Proof.
  intros Hs H2 Hd. apply agree_op.
  { unfold prod_fiber3_check. rewrite !one_ndim by assumption. do 2 (apply agree_throw; intros _).
    apply fiber1_eq; [assumption|]. unfold same_shape. chk. }
  intros E. pose proof (checks_inv _ _ (prod_fiber3_checks _ _ axis (one_wf _ Hs) (one_wf _ Hd) _ (one_wf _ H2)) E) as (Hm & E1 & E2).
  transitivity (prod_fiber3_async (one src1) al (one src2) (one dst) axis); [|reflexivity].
  rewrite prod_fiber3_submits by (assumption || apply one_wf; assumption). rewrite one_n by assumption.
  change (zrange 1) with [0]. cbn [map]. rewrite fg_out_one, one_tsh, (fib0 dst src1 axis Hd Hs Hm) by assumption. reflexivity.
Qed.
Lemma tile_sumprod_fiber_one (al : T) src1 src2 be dst axis redux : wf_tile src1 -> wf_tile src2 -> wf_tile dst ->
  agree (tile_sumprod_fiber al src1 src2 be dst axis) (sumprod_fiber_async al (one src1) (one src2) be (one dst) axis redux).
Proof.
  intros Hs H2 Hd. apply agree_op.
  { unfold sumprod_fiber_check, same_shape. rewrite !one_ndim, !one_shape by assumption. do 3 (apply agree_throw; intros _).
    apply fiber1_eq; [assumption|apply agree_refl]. }
  intros E. pose proof (checks_inv _ _ (sumprod_fiber_checks _ (one src2) _ axis (one_wf _ Hs) (one_wf _ Hd)) E) as (E1 & Hm).
  transitivity (sumprod_fiber_async al (one src1) (one src2) be (one dst) axis redux); [|reflexivity].
  rewrite sumprod_fiber_submits by (assumption || (symmetry; assumption) || apply one_wf; assumption). rewrite one_n by assumption.
  change (zrange 1) with [0]. cbn [map]. rewrite fg_out_one, one_tsh, (fib0 src1 dst axis Hs Hd Hm) by assumption.
  unfold bi. rewrite (fg_first_one src1 dst) by assumption. reflexivity.
Qed.

(** ** Softmax and layer normalisation *)
Section Pr.
Variables (big pair : tile) (axis : Z).
Hypothesis (Hb : wf_tile big) (Hp : wf_tile pair).
Notation B := (one big). Notation P := (one pair).
Lemma pair_check_one : agree (tile_pair_check big pair axis) (pair_check B P axis).
Proof.
  unfold tile_pair_check, pair_check. rewrite !one_ndim, !one_shape, !one_base by assumption.
  do 4 (apply agree_throw; intros _). apply agree_bind; [apply agree_refl|]. intros s0 E. apply agree_throw. intros E2.
  rewrite E, bind_Ok, E2. cbn [throw_if]. chk.
Qed.
Hypothesis Hm : pair_match B P axis.
Lemma pair_slice : slice_match B (sq P) axis.
Proof. apply sq_match. assumption. Qed.
Lemma pair_sq : wft (sq P).
Proof. apply sq_wft; [apply one_wf; assumption|]. eapply pair_match_pairt. eassumption. Qed.
Lemma pair_n : ntiles (sq P) = 1.
Proof. rewrite sq_ntiles; [apply one_n; assumption|]. eapply pair_match_pairt. eassumption. Qed.
Lemma psg_n_one : sg_n B axis = 1.
Proof. unfold sg_n. rewrite one_gridZ by assumption. apply zn_zrep. exact (proj1 Hm). Qed.
Lemma psg_xs_one : sg_xs B (sq P) axis = [(0, 0)].
Proof. unfold sg_xs. rewrite psg_n_one, pair_n. reflexivity. Qed.
Lemma psg_out_one : sg_out B (sq P) axis (0, 0) = 0.
Proof.
  pose proof (sg_bound B (sq P) axis (one_wf _ Hb) pair_sq pair_slice 0 0) as H. rewrite one_n, pair_n, psg_n_one in H by assumption. lia.
Qed.
Lemma pmnk_one : ti_mnk big axis = Ok (zn (dim3 axis (ti_shape big)) 0, zn (dim3 axis (ti_shape big)) 2, zn (dim3 axis (ti_shape big)) 1).
Proof. unfold ti_mnk. rewrite one_tt by assumption. apply tile_mnk_ok. exact (proj1 Hm). Qed.
End Pr.
Ltac psl Hm H1 H2 := rewrite (psg_xs_one _ _ _ H1 H2 Hm); cbn [map fst snd]; rewrite (psg_out_one _ _ _ H1 H2 Hm), (one_tsh _ H1), (pmnk_one _ _ _ H1 Hm); reflexivity.
Lemma tile_maxsumexp_one src dst axis : wf_tile src -> wf_tile dst ->
  agree (tile_maxsumexp (T := T) src dst axis) (maxsumexp_async (one src) (one dst) axis false).
Proof.
  intros Hs Hd. apply agree_op; [apply pair_check_one; assumption|].
  intros E. pose proof (checks_inv _ _ (pair_check_checks _ _ axis (one_wf _ Hs) (one_wf _ Hd)) E) as Hm.
  transitivity (maxsumexp_async (T := T) (one src) (one dst) axis false); [|reflexivity].
  rewrite maxsumexp_submits by (assumption || apply one_wf; assumption). psl Hm Hs Hd.
Qed.
(** The tensor operation is the tile operation after clearing the output. *)
Lemma tile_sumnorm_one src dst axis : wf_tile src -> wf_tile dst ->
  agree (ts <- tile_sumnorm (T := T) src dst axis ;; cs <- tile_clear dst ;; Ok (cs ++ ts)) (sumnorm_async (one src) (one dst) axis).
Proof.
  intros Hs Hd. unfold tile_sumnorm.
  assert (EA : forall c (k : unit -> res (list (task T))) (g : list (task T) -> res (list (task T))),
    bind (bind c k) g = bind c (fun u => bind (k u) g)) by (intros [u|m|] k g; reflexivity).
  rewrite EA. apply agree_op; [apply pair_check_one; assumption|].
  intros E. pose proof (checks_inv _ _ (pair_check_checks _ _ axis (one_wf _ Hs) (one_wf _ Hd)) E) as Hm.
  transitivity (sumnorm_async (T := T) (one src) (one dst) axis); [|reflexivity].
  rewrite sumnorm_submits by (assumption || apply one_wf; assumption). cbv zeta.
  rewrite one_n, (psg_n_one src dst axis Hs Hm), (pmnk_one src dst axis Hs Hm) by assumption. rewrite bind_Ok. cbn [tile_clear bind app].
  change (list_prod (zrange 1) (-1 :: zrange 1)) with [(0, -1); (0, 0)]. cbn [map]. unfold sn_task. cbn [fst snd].
  change (-1 =? -1) with true. change (0 =? -1) with false. cbv iota.
  rewrite (psg_out_one src dst axis Hs Hd Hm), (one_tsh _ Hs). reflexivity.
Qed.
Lemma tile_softmax_inplace_one ms (al : T) dst axis : wf_tile ms -> wf_tile dst ->
  agree (tile_softmax_inplace ms al dst axis) (softmax_inplace_async (one ms) al (one dst) axis).
Proof.
  intros Hs Hd. apply agree_op; [apply pair_check_one; assumption|].
  intros E. pose proof (checks_inv _ _ (pair_check_checks _ _ axis (one_wf _ Hd) (one_wf _ Hs)) E) as Hm.
  transitivity (softmax_inplace_async (one ms) al (one dst) axis); [|reflexivity].
  rewrite softmax_inplace_submits by (assumption || apply one_wf; assumption). psl Hm Hd Hs.
Qed.
Lemma tile_softmax_one ms src (al : T) dst axis : wf_tile ms -> wf_tile src -> wf_tile dst ->
  agree (tile_softmax ms src al dst axis) (softmax_async (one ms) (one src) al (one dst) axis).
Proof.
  intros Hs H2 Hd. apply agree_op.
  { unfold softmax_check. rewrite !one_ndim by assumption. do 2 (apply agree_throw; intros _).
    apply agree_bind; [apply pair_check_one; assumption|]. intros _ _. unfold same_shape. chk. }
  intros E. pose proof (checks_inv _ _ (softmax_checks _ _ axis (one_wf _ Hs) (one_wf _ Hd) _ (one_wf _ H2)) E) as (Hm & E1 & E2).
  transitivity (softmax_async (one ms) (one src) al (one dst) axis); [|reflexivity].
  rewrite softmax_submits by (assumption || apply one_wf; assumption). psl Hm Hd Hs.
Qed.
Lemma tile_normalize_one gb ms dst l (eps : T) axis : wf_tile gb -> wf_tile ms -> wf_tile dst ->
  agree (tile_normalize gb ms dst l eps axis) (normalize_async (one gb) (one ms) (one dst) l eps axis).
Proof.
  intros Hg Hs Hd. apply agree_op.
  { unfold normalize_check. rewrite !one_ndim, one_nt, one_shape by assumption. apply agree_throw. intros _.
    apply agree_bind; [apply agree_refl|]. intros g0 _. apply agree_throw. intros _. cbn [Z.eqb Pos.eqb negb throw_if].
    do 4 (apply agree_throw; intros _). apply pair_check_one; assumption. }
  intros E. pose proof (checks_inv _ _ (normalize_checks _ _ axis (one_wf _ Hs) (one_wf _ Hd) _ (one_wf _ Hg) l eps) E) as (E1 & E2 & E3 & E4 & Hm).
  transitivity (normalize_async (one gb) (one ms) (one dst) l eps axis); [|reflexivity].
  rewrite normalize_submits by (assumption || apply one_wf; assumption). psl Hm Hd Hs.
Qed.
Lemma tile_logsumexp_one src dst : wf_tile src -> wf_tile dst ->
  agree (tile_logsumexp (T := T) src dst) (logsumexp_async (one src) (one dst)).
Proof.
  intros Hs Hd. apply agree_op.
  { unfold logsumexp_check. rewrite !one_ndim, one_shape, one_base by assumption. do 2 (apply agree_throw; intros _).
    apply agree_bind; [apply agree_refl|]. intros s0 E. apply agree_throw. intros E2. rewrite E, bind_Ok, E2. cbn [throw_if]. chk. }
  intros E. rewrite E, bind_Ok, one_nt, for_1 by assumption. reflexivity.
Qed.

(** ** Masks, labels *)
Lemma tile_mask_scalar_one mask (val : T) A : wf_tile mask -> wf_tile A ->
  0 < ti_ndim A -> ti_shape mask = firstn (Z.to_nat (ti_ndim A - 1)) (ti_shape A) ->
  tile_mask_scalar mask val A = mask_scalar_async (one mask) val (one A) 1.
Proof.
  intros Hk Ha Hn E. rewrite (ti_ndim_eq A Ha) in *.
  assert (Hm : mask_match (one mask) (one A) 1) by (split; [rewrite one_shape; lia|split; assumption]).
  destruct (mask_submits (one mask) (one A) 1 (one_wf _ Hk) (one_wf _ Ha) val Hm) as (nc & N & ->).
  rewrite one_n by assumption. change (zrange 1) with [0]. cbn [map].
  assert (K : mk_i (one mask) 0 = 0) by (unfold mk_i; rewrite one_n by assumption; reflexivity).
  destruct (N 0 ltac:(rewrite one_n by assumption; lia)) as [P Q]. rewrite K, !one_tsz in * by assumption.
  unfold tile_mask_scalar. rewrite (ti_ndim_eq A Ha). rewrite (one_tt A Ha) at 1. cbn [tt_of tt_ms].
  rewrite rd_ok by (rewrite zlen_ztab; lia). rewrite zn_ztab by lia. rewrite bind_Ok. cbv beta iota. rewrite rd_ok by lia. rewrite bind_Ok.
  assert (R : ti_nelems mask = prodZ (firstn (Z.to_nat (zlen (ti_shape A) - 1)) (ti_shape A))).
  { unfold ti_nelems. rewrite (one_tt mask Hk), E. reflexivity. }
  rewrite <- R. do 2 f_equal. f_equal.
  assert (Q2 : ti_nelems A = ti_nelems mask * zn (ti_shape A) (zlen (ti_shape A) - 1)).
  { unfold ti_nelems at 1. rewrite (one_tt A Ha). cbn [tt_of tt_nelems]. rewrite R.
    rewrite <- (TraitsProofs.prodZ_firstn_S (ti_shape A) (zlen (ti_shape A) - 1)) by lia. rewrite Z.sub_add, firstn_zlen. reflexivity. }
  pose proof (tsz_pos (one mask) 0 (one_wf _ Hk) ltac:(rewrite one_n by assumption; lia)) as Pm. rewrite one_tsz in Pm by assumption.
  rewrite Q in Q2. apply Z.mul_cancel_l in Q2; [symmetry; assumption|lia].
Qed.
Lemma bind_assoc {A B C} (r : res A) (f : A -> res B) (g : B -> res C) : bind (bind r f) g = bind r (fun x => bind (f x) g).
Proof. destruct r; reflexivity. Qed.
Lemma tile_subtract_one (val : T) labels dst : wf_tile labels -> wf_tile dst ->
  agree (tile_subtract_indexed_outputs val labels dst) (subtract_indexed_outputs_async val (one labels) (one dst)).
Proof.
  intros Hl Hd. unfold subtract_indexed_outputs_async. rewrite one_nt, for_1 by assumption. unfold tile_subtract_indexed_outputs, labels_check.
  rewrite !one_ndim, !one_shape, !one_base by assumption.
  destruct (ti_ndim labels =? ti_ndim dst - 1); cbn [negb throw_if]; [|right; split; eexists; reflexivity].
  rewrite ?bind_assoc. apply agree_bind; [chk|]. intros _ _. rewrite ?bind_assoc.
  destruct (rd (ti_shape dst) 0) as [n|m|]; [|right; split; eexists; reflexivity|left; reflexivity].
  rewrite !bind_Ok, Z.eqb_refl. apply agree_refl.
Qed.
Lemma tile_total_sum_accum_one (al : T) lse src labels val : wf_tile lse -> wf_tile src -> wf_tile labels -> wf_tile val ->
  agree (tile_total_sum_accum al lse src labels val) (total_sum_accum_async al (one lse) (one src) (one labels) (one val)).
Proof.
  intros Hl Hs Hb Hv. unfold total_sum_accum_async. unfold tile_total_sum_accum, total_sum_check.
  rewrite !one_ndim, !one_shape, !one_base by assumption.
  destruct (ti_ndim lse =? ti_ndim labels); cbn [negb throw_if]; [|right; split; eexists; reflexivity].
  destruct (ti_ndim lse =? ti_ndim src - 1); cbn [negb throw_if]; [|right; split; eexists; reflexivity].
  destruct (ti_ndim val =? 0); cbn [negb throw_if]; [|right; split; eexists; reflexivity].
  rewrite ?bind_assoc. apply agree_bind; [chk|]. intros _ _. rewrite ?bind_assoc.
  destruct (rd (ti_shape src) 0) as [n|m|]; [|right; split; eexists; reflexivity|left; reflexivity].
  rewrite !bind_Ok, Z.eqb_refl. cbn [negb throw_if]. rewrite !bind_Ok, one_handle, !bind_Ok, one_nt, for_1 by assumption. apply agree_refl.
Qed.

(** ** gemm *)
Lemma gemm_check_one tA A tB B C ndim b : wf_tile A -> wf_tile B -> wf_tile C -> 0 < ndim ->
  agree (tile_gemm_check tA A tB B C ndim b) (gemm_check tA (one A) tB (one B) (one C) ndim b).
Proof.
  intros HA HB HC Hn. unfold tile_gemm_check, gemm_check, tile_gemm_check_ndim, gemm_check_ndim.
  unfold tile_gemm_check_batch, gemm_check_batch, tile_gemm_check_opA_opB, gemm_check_opA_opB, tile_gemm_check_opA_C, gemm_check_opA_C,
    tile_gemm_check_opB_C, gemm_check_opB_C. rewrite !one_ndim by assumption.
  destruct (Z.leb_spec ndim 0); [lia|]. destruct (Z.ltb_spec ndim 0); [lia|]. cbn [throw_if].
  do 4 (apply agree_throw; intros _). destruct tA, tB; chk.
Qed.
Lemma grid_ms x i : wf_tile x -> 0 <= i <= ti_ndim x -> rd (tt_ms (t_grid (one x))) i = Ok (1, 1).
Proof.
  intros Hx Hi. rewrite ti_ndim_eq in Hi by assumption. rewrite t_grid_eq, one_gridZ by (assumption || apply one_wf; assumption). cbn [tt_of tt_ms].
  pose proof (zlen_nonneg (ti_shape x)).
  rewrite rd_ok by (rewrite zlen_ztab; rewrite ?zlen_zrep by lia; lia). rewrite zn_ztab by (rewrite ?zlen_zrep by lia; lia).
  assert (F : forall l, (forall y, In y l -> y = 1) -> prodZ l = 1).
  { induction l as [|y l IH]; intros H'; cbn [prodZ]; [reflexivity|]. rewrite IH by (intros; apply H'; right; assumption). rewrite (H' y) by (left; reflexivity). reflexivity. }
  assert (R : forall y, In y (zrep (zlen (ti_shape x)) 1) -> y = 1) by (intros y Hy; apply repeat_spec in Hy; assumption).
  rewrite <- (firstn_skipn (Z.to_nat i) (zrep (zlen (ti_shape x)) 1)) in R.
  rewrite !F; [reflexivity| |]; intros y Hy; apply R, in_or_app; auto.
Qed.
Lemma gemm_ndims tA A tB B C ndim b : tile_gemm_check tA A tB B C ndim b = Ok tt ->
  0 <= ndim /\ 0 <= b /\ b + ndim <= ti_ndim A /\ b + ndim <= ti_ndim B /\ ti_ndim A + ti_ndim B = ti_ndim C + 2 * ndim + b.
Proof.
  unfold tile_gemm_check, tile_gemm_check_ndim. destruct (Z.leb_spec ndim 0); [discriminate|]. cbn [throw_if].
  destruct (Z.ltb_spec b 0); [discriminate|]. cbn [throw_if]. destruct (Z.ltb_spec (ti_ndim A) (b + ndim)); [discriminate|]. cbn [throw_if].
  destruct (Z.ltb_spec (ti_ndim B) (b + ndim)); [discriminate|]. cbn [throw_if].
  destruct (Z.eqb_spec (ti_ndim A + ti_ndim B) (ti_ndim C + 2 * ndim + b)); [|discriminate]. lia.
Qed.
Lemma tile_gemm_one (al : T) tA A tB B be C ndim b : wf_tile A -> wf_tile B -> wf_tile C -> 0 < ndim ->
  agree (tile_gemm al tA A tB B be C ndim b) (gemm_async al tA (one A) tB (one B) be (one C) ndim b false).
Proof.
  intros HA HB HC Hn. pose proof (gemm_check_one tA A tB B C ndim b HA HB HC Hn) as G.
  unfold tile_gemm, gemm_async. destruct G as [G|[[m1 ->] [m2 ->]]]; [|right; split; eexists; reflexivity]. rewrite G.
  destruct (gemm_check tA (one A) tB (one B) (one C) ndim b) as [[]|m|]; [|right; split; eexists; reflexivity|left; reflexivity].
  apply gemm_ndims in G as (N1 & N2 & N3 & N4 & N5). rewrite !bind_Ok. rewrite !one_ndim by assumption.
  rewrite !grid_ms by (assumption || lia). rewrite !bind_Ok. unfold div_ at 3. cbn [Z.eqb]. rewrite bind_Ok. change (1 ÷ 1) with 1.
  replace (match tA with NoTrans => k <- div_ 1 1 ;; Ok (k, 1, 1) | Trans => Ok (1, 1, 1) end) with (Ok (1, 1, 1)) by (destruct tA; reflexivity).
  rewrite bind_Ok. replace (match tB with NoTrans => (1, 1) | Trans => (1, 1) end) with (1, 1) by (destruct tB; reflexivity).
  cbv beta iota. rewrite !for_1. change ((0 * 1 + 0) * 1 + 0) with 0. change (1 * 0 + 0 * 1 * 1) with 0.
  rewrite !one_handle, !one_traits, !bind_Ok.
  destruct (rd (tt_ms (ti_tt C)) (ti_ndim A - b - ndim)) as [[tm c1]|m|]; [|right; split; eexists; reflexivity|left; reflexivity]. rewrite !bind_Ok.
  destruct (rd (tt_ms (ti_tt C)) (ti_ndim C - b)) as [[x tb]|m|]; [|right; split; eexists; reflexivity|left; reflexivity]. rewrite !bind_Ok.
  destruct (div_ c1 tb) as [tn|m|]; [|right; split; eexists; reflexivity|left; reflexivity]. rewrite !bind_Ok.
  rewrite ?one_handle, ?bind_Ok. rewrite ?one_handle, ?bind_Ok. rewrite ?one_traits, ?bind_Ok.
  unfold gemm_tile_k at 1. rewrite one_ndim by assumption. apply agree_bind; [apply agree_refl|]. intros k _. apply agree_refl.
Qed.
End T.
