(** * Assertions on named tensors

    For reasoning about the Python layers: a program works on a family of named tensors, each
    well-formed and sharing no tile with the others; an assertion says which values (extended
    reals) some of them hold.  Everything the program does not write is kept. *)
From Coq Require Import Reals Lra.
From Verif Require Import Base Spec Geometry Traits TraitsProofs Runtime Ops RealOps TensorSem ElemGeneric OneOut ElemOps Formulas Axis AccRuns Loops SliceOps SliceGeo SliceProofs SliceReduce RSum PropElem PropElem2 PropElemR PropSlice FiberOps FiberGeo FiberProofs FiberReduce PropFiber XReals Sequence SplitGeo MatOps MatProofs GemmProofs GemmRuns Nrm2Proofs PropMat NdRuns KeepRuns AnyRuns SoftmaxOps SoftmaxScalar SoftmaxRuns SoftmaxProofs PairGeo PropSoftmax LossOps LossRuns EmbedRuns LossProofs PropLoss PropDeriv XTriples.
Local Open Scope R_scope.
Local Close Scope Z_scope.
Local Open Scope R_scope.

(** Names: the value and the gradient of node [n] (a TensorMoments object of the Python code),
    and the temporaries of layer [l]. *)
Inductive gvar := Val (n : nat) | Grad (n : nat) | Tmp (l n : nat).
Definition gvar_dec (x y : gvar) : {x = y} + {x <> y}.
Proof. repeat decide equality. Defined.

(** Known values of the named tensors ([None]: nothing known). *)
Definition smap := gvar -> option (list Z -> XR).
Definition upd (y : gvar) (v : option (list Z -> XR)) (M : smap) : smap := fun x => if gvar_dec x y then v else M x.
Lemma upd_eq y v M : upd y v M y = v.
Proof. unfold upd. destruct (gvar_dec y y); congruence. Qed.
Lemma upd_ne x y v M : x <> y -> upd y v M x = M x.
Proof. unfold upd. destruct (gvar_dec x y); congruence. Qed.

(** An environment: the tensors behind the names in use ([U]), and an assertion [K] about other
    data (token indices, masks, ...) that writing the named tensors does not change. *)
Class env := {
  A : gvar -> tensor;
  U : gvar -> Prop;
  K : store XR -> Prop;
  UW : forall x, U x -> wf_tensor (A x);
  UD : forall x y, U x -> U y -> x <> y -> disj (A x) (A y);
  UK : forall x s s', U x -> tinv s s' -> frame [A x] s s' -> K s -> K s'
}.

Section Has.
Context {E : env}.
Implicit Types (M : smap) (s : store XR) (x y : gvar).

(** The named tensors are allocated and hold the values [M] says. *)
Definition has M s : Prop :=
  K s /\ forall x, U x -> stored KF s (A x) /\ forall f, M x = Some f -> xval s (A x) f.

Lemma has_st M s x : has M s -> U x -> stored KF s (A x).
Proof. intros [_ H] Hx. apply H. assumption. Qed.
Lemma has_val M s x f : has M s -> U x -> M x = Some f -> xval s (A x) f.
Proof. intros [_ H] Hx. apply H. assumption. Qed.
Lemma has_K M s : has M s -> K s.
Proof. intros [H _]. assumption. Qed.
Lemma has_sub M M' s : has M s -> (forall x f, U x -> M' x = Some f -> M x = Some f) -> has M' s.
Proof.
  intros [H1 H2] H. split; [assumption|]. intros x Hx. destruct (H2 x Hx) as [H3 H4]. split; [assumption|].
  intros f Hf. apply H4. apply H; assumption.
Qed.
Lemma xval_frame s s' x y f : U x -> U y -> x <> y -> frame [A y] s s' -> xval s (A x) f -> xval s' (A x) f.
Proof.
  intros Hx Hy Hn Hf Hv idx Hi. rewrite <- Hv by assumption.
  apply (frame_elem [A y]); [apply wf_wft, UW; assumption|assumption| |assumption].
  intros t [<-|[]]. apply UD; assumption.
Qed.
Lemma has_write M s s' y v : has M s -> U y -> tinv s s' -> frame [A y] s s' -> (forall f, v = Some f -> xval s' (A y) f) ->
  has (upd y v M) s'.
Proof.
  intros [HK H] Hy Ht Hf Hv. split; [eapply UK; eassumption|]. intros x Hx. destruct (H x Hx) as [S V].
  split; [eapply tinv_stored; eassumption|]. intros f. unfold upd. destruct (gvar_dec x y) as [->|Hn]; [apply Hv|].
  intros Hm. eapply xval_frame; [| | |eassumption|apply V; assumption]; assumption.
Qed.
(** What a program computes may be restated pointwise. *)
Lemma h_lift M s y op g f' : has M s -> U y ->
  runs op s (fun s' => xval s' (A y) (fin g) /\ frame [A y] s s') ->
  (forall idx, inb (t_shape (A y)) idx -> g idx = f' idx) ->
  runs_nd op s (has (upd y (Some (fin f')) M)).
Proof.
  intros HM Hy Hr Hg. apply runs_runs_nd. eapply runs_weaken; [exact Hr|]. intros s' Ht [Hv Hf].
  eapply has_write; try eassumption. intros f Ef. inversion Ef; subst. intros idx Hi. rewrite Hv by assumption. unfold fin. rewrite Hg by assumption. reflexivity.
Qed.

Ltac hstart := intros; match goal with HM : has _ _ |- _ =>
  eapply h_lift; [eassumption|eassumption| |eassumption] end.
Ltac hside := match goal with
  | |- wf_tensor (A _) => apply UW; assumption
  | |- disj (A _) (A _) => apply UD; try assumption; congruence
  | |- stored KF _ (A _) => eapply has_st; eassumption
  | |- xval _ (A _) _ => eapply has_val; eassumption
  | |- _ => assumption
  end.

(** *** Elementwise *)
Lemma h_unary op fx fr M s y f f' : unary_elementwise (T := XR) op fx -> (forall x : R, fx (Fin x) = Fin (fr x)) ->
  has M s -> U y -> M y = Some (fin f) ->
  (forall idx, inb (t_shape (A y)) idx -> fr (f idx) = f' idx) ->
  runs_nd (op (A y)) s (has (upd y (Some (fin f')) M)).
Proof.
  intros Hop Hf HM Hy Ey Hg. eapply (h_lift M s y _ (fun idx => fr (f idx))); try eassumption. eapply runs_weaken; [apply Hop; hside|].
  intros s' _ [H1 H2]. split; [|assumption]. intros idx Hi. rewrite H1 by assumption.
  rewrite (has_val M s y _ HM Hy Ey) by assumption. apply Hf.
Qed.
(** ops that ignore the old contents *)
Lemma h_unary0 op (c : R) M s y f' : unary_elementwise (T := XR) op (fun _ => Fin c) ->
  has M s -> U y -> (forall idx, inb (t_shape (A y)) idx -> c = f' idx) ->
  runs_nd (op (A y)) s (has (upd y (Some (fin f')) M)).
Proof.
  intros Hop HM Hy Hg. eapply (h_lift M s y _ (fun _ => c)); try eassumption. eapply runs_weaken; [apply Hop; hside|].
  intros s' _ [H1 H2]. split; [|assumption]. intros idx Hi. rewrite H1 by assumption. reflexivity.
Qed.
Lemma h_binary op fx fr M s x y f g f' : binary_elementwise (T := XR) op fx -> (forall a b : R, fx (Fin a) (Fin b) = Fin (fr a b)) ->
  has M s -> U x -> U y -> x <> y -> same_tiling (A x) (A y) -> M x = Some (fin f) -> M y = Some (fin g) ->
  (forall idx, inb (t_shape (A y)) idx -> fr (f idx) (g idx) = f' idx) ->
  runs_nd (op (A x) (A y)) s (has (upd y (Some (fin f')) M)).
Proof.
  intros Hop Hf HM Hx Hy Hn Ht Ex Ey Hg. eapply (h_lift M s y _ (fun idx => fr (f idx) (g idx))); try eassumption.
  eapply runs_weaken; [apply (proj1 (Hop (A x) (A y) s (UW x Hx) (UW y Hy))); hside|].
  intros s' _ [H1 H2]. split; [|assumption]. intros idx Hi. rewrite H1 by assumption.
  rewrite (has_val M s y _ HM Hy Ey) by assumption. rewrite (has_val M s x _ HM Hx Ex) by (destruct Ht as [-> _]; assumption). apply Hf.
Qed.
Lemma h_binary0 op fx fr M s x y f f' : binary_elementwise (T := XR) op (fun a _ => fx a) -> (forall a : R, fx (Fin a) = Fin (fr a)) ->
  has M s -> U x -> U y -> x <> y -> same_tiling (A x) (A y) -> M x = Some (fin f) ->
  (forall idx, inb (t_shape (A y)) idx -> fr (f idx) = f' idx) ->
  runs_nd (op (A x) (A y)) s (has (upd y (Some (fin f')) M)).
Proof.
  intros Hop Hf HM Hx Hy Hn Ht Ex Hg. eapply (h_lift M s y _ (fun idx => fr (f idx))); try eassumption.
  eapply runs_weaken; [apply (proj1 (Hop (A x) (A y) s (UW x Hx) (UW y Hy))); hside|].
  intros s' _ [H1 H2]. split; [|assumption]. intros idx Hi. rewrite H1 by assumption.
  rewrite (has_val M s x _ HM Hx Ex) by (destruct Ht as [-> _]; assumption). apply Hf.
Qed.
Lemma h_ternary op fx fr M s x1 x2 y f1 f2 g f' : ternary_elementwise (T := XR) op fx ->
  (forall a b c : R, fx (Fin a) (Fin b) (Fin c) = Fin (fr a b c)) ->
  has M s -> U x1 -> U x2 -> U y -> x1 <> y -> x2 <> y -> same_tiling (A x1) (A y) -> same_tiling (A x2) (A y) ->
  M x1 = Some (fin f1) -> M x2 = Some (fin f2) -> M y = Some (fin g) ->
  (forall idx, inb (t_shape (A y)) idx -> fr (f1 idx) (f2 idx) (g idx) = f' idx) ->
  runs_nd (op (A x1) (A x2) (A y)) s (has (upd y (Some (fin f')) M)).
Proof.
  intros Hop Hf HM Hx1 Hx2 Hy Hn1 Hn2 Ht1 Ht2 Ex1 Ex2 Ey Hg. eapply (h_lift M s y _ (fun idx => fr (f1 idx) (f2 idx) (g idx))); try eassumption.
  eapply runs_weaken; [apply (proj1 (Hop (A x1) (A x2) (A y) s (UW x1 Hx1) (UW x2 Hx2) (UW y Hy))); hside|].
  intros s' _ [H1 H2]. split; [|assumption]. intros idx Hi. rewrite H1 by assumption.
  rewrite (has_val M s y _ HM Hy Ey) by assumption. rewrite (has_val M s x1 _ HM Hx1 Ex1) by (destruct Ht1 as [-> _]; assumption).
  rewrite (has_val M s x2 _ HM Hx2 Ex2) by (destruct Ht2 as [-> _]; assumption). apply Hf.
Qed.

Lemma h_clear M s y f' : has M s -> U y -> (forall idx, inb (t_shape (A y)) idx -> 0 = f' idx) ->
  runs_nd (clear_async (A y)) s (has (upd y (Some (fin f')) M)).
Proof. apply (h_unary0 clear_async 0 M s y f' C12_clear). Qed.
Lemma h_fill (c : R) M s y f' : has M s -> U y -> (forall idx, inb (t_shape (A y)) idx -> c = f' idx) ->
  runs_nd (fill_async (Fin c) (A y)) s (has (upd y (Some (fin f')) M)).
Proof. apply (h_unary0 (fill_async (Fin c)) c M s y f' (C12_fill (Fin c))). Qed.
Lemma h_copy M s x y f f' : has M s -> U x -> U y -> x <> y -> same_tiling (A x) (A y) -> M x = Some (fin f) ->
  (forall idx, inb (t_shape (A y)) idx -> f idx = f' idx) ->
  runs_nd (copy_async (A x) (A y)) s (has (upd y (Some (fin f')) M)).
Proof. apply (h_binary0 copy_async (fun a => a) (fun a => a)); [exact C12_copy|reflexivity]. Qed.
Lemma h_axpy (al : R) M s x y f g f' : has M s -> U x -> U y -> x <> y -> same_tiling (A x) (A y) -> M x = Some (fin f) -> M y = Some (fin g) ->
  (forall idx, inb (t_shape (A y)) idx -> al * f idx + g idx = f' idx) ->
  runs_nd (axpy_async (Fin al) (A x) (A y)) s (has (upd y (Some (fin f')) M)).
Proof. apply (h_binary (axpy_async (Fin al)) _ (fun a b => al * a + b) M s x y f g f' (C14_axpy (Fin al))). reflexivity. Qed.
Lemma x_one_ne : o_eqb (Fin 1) o_zero = false.
Proof. rewrite x_eqb0. apply Reqb_false. lra. Qed.
Lemma h_add M s x y f g f' : has M s -> U x -> U y -> x <> y -> same_tiling (A x) (A y) -> M x = Some (fin f) -> M y = Some (fin g) ->
  (forall idx, inb (t_shape (A y)) idx -> f idx + g idx = f' idx) ->
  runs_nd (add_async (Fin 1) (A x) (Fin 1) (A y)) s (has (upd y (Some (fin f')) M)).
Proof.
  apply (h_binary (fun src dst => add_async (Fin 1) src (Fin 1) dst) _ (fun a b => a + b) M s x y f g f' (C13_add_generic (T := XR) (Fin 1) (Fin 1)
    x_one_ne x_one_ne)). intros a b. cbn. f_equal. lra.
Qed.
Lemma h_prod M s x y f g f' : has M s -> U x -> U y -> x <> y -> same_tiling (A x) (A y) -> M x = Some (fin f) -> M y = Some (fin g) ->
  (forall idx, inb (t_shape (A y)) idx -> g idx * f idx = f' idx) ->
  runs_nd (prod_async (A x) (A y)) s (has (upd y (Some (fin f')) M)).
Proof. apply (h_binary prod_async _ (fun a b => b * a) M s x y f g f' C12_prod). reflexivity. Qed.
Lemma h_scal_inplace (al : R) M s y f f' : has M s -> U y -> M y = Some (fin f) ->
  (forall idx, inb (t_shape (A y)) idx -> al * f idx = f' idx) ->
  runs_nd (scal_inplace_async (Fin al) (A y)) s (has (upd y (Some (fin f')) M)).
Proof. apply (h_unary (scal_inplace_async (Fin al)) _ (fun a => al * a) M s y f f' (C12_scal_inplace (Fin al))). reflexivity. Qed.

Lemma hypot_pos (x e : R) : 0 < e -> 0 < sqrt (x * x + e * e).
Proof. intros H. apply sqrt_lt_R0. nra. Qed.
Lemma h_hypot_inv (eps : R) M s y f f' : 0 < eps -> has M s -> U y -> M y = Some (fin f) ->
  (forall idx, inb (t_shape (A y)) idx -> 1 / sqrt (f idx * f idx + eps * eps) = f' idx) ->
  runs_nd (hypot_scalar_inverse_async (Fin eps) (Fin 1) (A y)) s (has (upd y (Some (fin f')) M)).
Proof.
  intros He. apply (h_unary (hypot_scalar_inverse_async (Fin eps) (Fin 1)) _ (fun a => 1 / sqrt (a * a + eps * eps)) M s y f f' (C12_hypot_scalar_inverse (Fin eps) (Fin 1))).
  intros a. cbn [o_hypot o_mul o_div o_one Xops x_mul x_hypot]. rewrite Rmult_1_l.
  pose proof (hypot_pos a eps He). rewrite x_div_fin; [reflexivity|]. unfold Rhypot. lra.
Qed.

(** activations, with the functions and derivatives of C36 *)
Definition relu' (x : R) : R := if Rlt_dec 0 x then 1 else 0.
Definition gelu' : R -> R := f_dgelu.
Definition gelu_tanh' : R -> R := f_dgelutanh.
Lemma sqrt2_pos : 0 < sqrt 2. Proof. apply sqrt_lt_R0; lra. Qed.
Lemma x_gelu (x : R) : f_gelu (Fin x) = Fin (gelu x).
Proof.
  rewrite gelu_f. unfold f_gelu, half. cbn [o_mul o_erfc o_div o_ofZ o_sqrt o_lit Xops o_one Rops].
  rewrite x_sqrt_fin by lra. rewrite x_div_fin by (pose proof sqrt2_pos; lra). reflexivity.
Qed.
Lemma x_dgelu (x : R) : f_dgelu (Fin x) = Fin (gelu' x).
Proof.
  pose proof PI_RGT_0. unfold gelu', f_dgelu, half. cbn [o_mul o_erfc o_div o_ofZ o_sqrt o_lit o_pi o_exp o_add o_neg Xops o_one Rops].
  assert (P : 0 < sqrt (2 * PI)) by (apply sqrt_lt_R0; lra).
  rewrite x_sqrt_fin by lra. cbn [x_mul]. rewrite x_sqrt_fin by lra. rewrite !x_div_fin by (pose proof sqrt2_pos; lra). reflexivity.
Qed.
Lemma x_g3 : g3 (T := XR) = Fin g3.
Proof.
  pose proof PI_RGT_0. pose proof sqrt_pi_pos. unfold g3. cbn [o_mul o_div o_ofZ o_sqrt o_pi o_neg Xops Rops].
  rewrite !x_sqrt_fin by lra. rewrite x_div_fin by lra. reflexivity.
Qed.
Lemma x_g4 : g4 (T := XR) = Fin g4.
Proof. unfold g4. rewrite x_g3. reflexivity. Qed.
Lemma x_g5 : g5 (T := XR) = Fin g5.
Proof. unfold g5. rewrite x_g4. reflexivity. Qed.
Lemma x_gelutanh (x : R) : f_gelutanh (Fin x) = Fin (gelu_tanh x).
Proof.
  rewrite gt_kernel. unfold f_gelutanh. rewrite x_g3, x_g4. cbv zeta. cbn [o_mul o_div o_add o_sub o_exp o_one Xops Rops x_mul x_add x_sub x_exp x_neg].
  rewrite x_div_fin; [reflexivity|].
  match goal with |- 1 + exp ?a * exp ?b <> 0 => pose proof (exp_pos a); pose proof (exp_pos b); nra end.
Qed.
Lemma x_dgelutanh (x : R) : f_dgelutanh (Fin x) = Fin (gelu_tanh' x).
Proof.
  unfold gelu_tanh', f_dgelutanh. rewrite x_g3, x_g4, x_g5. cbv zeta.
  cbn [o_mul o_div o_add o_sub o_exp o_one o_isinf Xops Rops x_mul x_add x_sub x_exp x_isinf].
  rewrite x_div_fin; [reflexivity|].
  match goal with |- exp ?a + 1 <> 0 => pose proof (exp_pos a); lra end.
Qed.

Lemma h_relu M s x y f f' : has M s -> U x -> U y -> x <> y -> same_tiling (A x) (A y) -> M x = Some (fin f) ->
  (forall idx, inb (t_shape (A y)) idx -> relu (f idx) = f' idx) ->
  runs_nd (relu_forward_async (A x) (A y)) s (has (upd y (Some (fin f')) M)).
Proof. apply (h_binary0 relu_forward_async f_relu relu); [exact C12_relu_forward|intros a; unfold f_relu, relu; cbn; unfold Rltb; destruct (Rlt_dec a 0); f_equal; [rewrite Rmax_right by lra; reflexivity|rewrite Rmax_left by lra; reflexivity]]. Qed.
Lemma h_gelutanh M s x y f f' : has M s -> U x -> U y -> x <> y -> same_tiling (A x) (A y) -> M x = Some (fin f) ->
  (forall idx, inb (t_shape (A y)) idx -> gelu_tanh (f idx) = f' idx) ->
  runs_nd (gelutanh_async (A x) (A y)) s (has (upd y (Some (fin f')) M)).
Proof. apply (h_binary0 gelutanh_async f_gelutanh gelu_tanh); [exact C12_gelutanh|exact x_gelutanh]. Qed.
Lemma h_gelu M s y f f' : has M s -> U y -> M y = Some (fin f) -> (forall idx, inb (t_shape (A y)) idx -> gelu (f idx) = f' idx) ->
  runs_nd (gelu_async (A y)) s (has (upd y (Some (fin f')) M)).
Proof. apply (h_unary gelu_async f_gelu gelu); [exact C12_gelu|exact x_gelu]. Qed.

Lemma h_relu_backward M s x1 x2 y f1 f2 g f' : has M s -> U x1 -> U x2 -> U y -> x1 <> y -> x2 <> y ->
  same_tiling (A x1) (A y) -> same_tiling (A x2) (A y) -> M x1 = Some (fin f1) -> M x2 = Some (fin f2) -> M y = Some (fin g) ->
  (forall idx, inb (t_shape (A y)) idx -> g idx + relu' (f1 idx) * f2 idx = f' idx) ->
  runs_nd (relu_backward_async (A x1) (A x2) (A y)) s (has (upd y (Some (fin f')) M)).
Proof.
  apply (h_ternary relu_backward_async _ (fun a b c => c + relu' a * b) _ _ _ _ _ _ _ _ _ C12_relu_backward).
  intros a b c. unfold relu'. cbn [o_zero o_ltb Xops x_ltb o_add x_add]. unfold Rltb. destruct (Rlt_dec 0 a); cbn; f_equal; lra.
Qed.
Lemma h_gelu_backward M s x1 x2 y f1 f2 g f' : has M s -> U x1 -> U x2 -> U y -> x1 <> y -> x2 <> y ->
  same_tiling (A x1) (A y) -> same_tiling (A x2) (A y) -> M x1 = Some (fin f1) -> M x2 = Some (fin f2) -> M y = Some (fin g) ->
  (forall idx, inb (t_shape (A y)) idx -> g idx + gelu' (f1 idx) * f2 idx = f' idx) ->
  runs_nd (gelu_backward_async (A x1) (A x2) (A y)) s (has (upd y (Some (fin f')) M)).
Proof.
  apply (h_ternary gelu_backward_async _ (fun a b c => c + gelu' a * b) _ _ _ _ _ _ _ _ _ C12_gelu_backward).
  intros a b c. rewrite x_dgelu. reflexivity.
Qed.
Lemma h_gelutanh_backward M s x1 x2 y f1 f2 g f' : has M s -> U x1 -> U x2 -> U y -> x1 <> y -> x2 <> y ->
  same_tiling (A x1) (A y) -> same_tiling (A x2) (A y) -> M x1 = Some (fin f1) -> M x2 = Some (fin f2) -> M y = Some (fin g) ->
  (forall idx, inb (t_shape (A y)) idx -> g idx + gelu_tanh' (f1 idx) * f2 idx = f' idx) ->
  runs_nd (gelutanh_backward_async (A x1) (A x2) (A y)) s (has (upd y (Some (fin f')) M)).
Proof.
  apply (h_ternary gelutanh_backward_async _ (fun a b c => c + gelu_tanh' a * b) _ _ _ _ _ _ _ _ _ C12_gelutanh_backward).
  intros a b c. rewrite x_g3, x_g4. cbn [o_mul o_add o_exp o_isinf Xops x_mul x_add x_exp x_isinf]. rewrite x_dgelutanh. reflexivity.
Qed.

(** *** Slices and fibers *)
Lemma h_sum_slice (al be : R) M s x y axis f g f' : has M s -> U x -> U y -> x <> y -> slice_match (A x) (A y) axis -> M x = Some (fin f) ->
  (be = 0 \/ M y = Some (fin g)) ->
  (forall idx, inb (t_shape (A y)) idx -> be * g idx + al * Rsum (zn (t_shape (A x)) axis) (fun k => f (ins axis k idx)) = f' idx) ->
  runs_nd (sum_slice_async (Fin al) (A x) (Fin be) (A y) axis false) s (has (upd y (Some (fin f')) M)).
Proof.
  intros HM Hx Hy Hn Hm Ex Ey Hg. eapply h_lift; [eassumption|eassumption| |exact Hg]. apply x_sum_slice; try hside.
  destruct Ey; [left; assumption|right; hside].
Qed.
Lemma h_sumprod_slice (al be : R) M s x1 x2 y axis f1 f2 g f' : has M s -> U x1 -> U x2 -> U y -> x1 <> y -> x2 <> y ->
  slice_match (A x1) (A y) axis -> same_tiling (A x2) (A x1) -> M x1 = Some (fin f1) -> M x2 = Some (fin f2) ->
  (be = 0 \/ M y = Some (fin g)) ->
  (forall idx, inb (t_shape (A y)) idx -> be * g idx + al * Rsum (zn (t_shape (A x1)) axis) (fun k => f1 (ins axis k idx) * f2 (ins axis k idx)) = f' idx) ->
  runs_nd (sumprod_slice_async (Fin al) (A x1) (A x2) (Fin be) (A y) axis false) s (has (upd y (Some (fin f')) M)).
Proof.
  intros HM Hx1 Hx2 Hy Hn1 Hn2 Hm Ht Ex1 Ex2 Ey Hg. eapply h_lift; [eassumption|eassumption| |exact Hg]. apply x_sumprod_slice; try hside.
  destruct Ey; [left; assumption|right; hside].
Qed.
Lemma h_norm_slice (al : R) M s x y axis f f' : has M s -> U x -> U y -> x <> y -> slice_match (A x) (A y) axis -> M x = Some (fin f) ->
  (forall idx, inb (t_shape (A y)) idx -> sqrt (al * al * Rsum (zn (t_shape (A x)) axis) (fun k => f (ins axis k idx) * f (ins axis k idx))) = f' idx) ->
  runs_nd (norm_slice_async (Fin al) (A x) (Fin 0) (A y) axis false) s (has (upd y (Some (fin f')) M)).
Proof. intros HM Hx Hy Hn Hm Ex Hg. eapply h_lift; [eassumption|eassumption| |exact Hg]. apply x_norm_slice; hside. Qed.
Lemma h_add_slice (al be : R) M s x y axis f g f' : has M s -> U x -> U y -> x <> y -> slice_match (A y) (A x) axis ->
  M x = Some (fin f) -> M y = Some (fin g) ->
  (forall idx, inb (t_shape (A y)) idx -> al * f (del axis idx) + be * g idx = f' idx) ->
  runs_nd (add_slice_async (Fin al) (A x) (Fin be) (A y) axis) s (has (upd y (Some (fin f')) M)).
Proof. intros HM Hx Hy Hn Hm Ex Ey Hg. eapply h_lift; [eassumption|eassumption| |exact Hg]. apply x_add_slice; hside. Qed.
Lemma h_prod_slice (al : R) M s x y axis f g f' : has M s -> U x -> U y -> x <> y -> slice_match (A y) (A x) axis ->
  M x = Some (fin f) -> M y = Some (fin g) ->
  (forall idx, inb (t_shape (A y)) idx -> al * f (del axis idx) * g idx = f' idx) ->
  runs_nd (prod_slice_async (A x) (Fin al) (A y) axis) s (has (upd y (Some (fin f')) M)).
Proof. intros HM Hx Hy Hn Hm Ex Ey Hg. eapply h_lift; [eassumption|eassumption| |exact Hg]. apply x_prod_slice; hside. Qed.
Lemma h_add_slice3 (al be : R) M s x1 x2 y axis f1 f2 f' : has M s -> U x1 -> U x2 -> U y -> x1 <> y -> x2 <> y ->
  slice_match (A y) (A x1) axis -> same_tiling (A y) (A x2) -> M x1 = Some (fin f1) -> M x2 = Some (fin f2) ->
  (forall idx, inb (t_shape (A y)) idx -> al * f1 (del axis idx) + be * f2 idx = f' idx) ->
  runs_nd (add_slice3_async (Fin al) (A x1) (Fin be) (A x2) (A y) axis) s (has (upd y (Some (fin f')) M)).
Proof. intros HM Hx1 Hx2 Hy Hn1 Hn2 Hm Ht Ex1 Ex2 Hg. eapply h_lift; [eassumption|eassumption| |exact Hg]. apply x_add_slice3; hside. Qed.
Lemma h_add_fiber (al be : R) M s x y axis b f g f' : al <> 0 -> has M s -> U x -> U y -> x <> y -> fiber_match (A y) (A x) axis b ->
  M x = Some (fin f) -> M y = Some (fin g) ->
  (forall idx, inb (t_shape (A y)) idx -> al * f (fib axis b idx) + be * g idx = f' idx) ->
  runs_nd (add_fiber_async (Fin al) (A x) (Fin be) (A y) axis b) s (has (upd y (Some (fin f')) M)).
Proof. intros Ha HM Hx Hy Hn Hm Ex Ey Hg. eapply h_lift; [eassumption|eassumption| |exact Hg]. apply x_add_fiber; hside. Qed.
Lemma h_prod_fiber3 (al : R) M s x1 x2 y axis f1 f2 f' : has M s -> U x1 -> U x2 -> U y -> x1 <> y -> x2 <> y ->
  fiber_match (A y) (A x1) axis 0 -> same_tiling (A x2) (A y) -> M x1 = Some (fin f1) -> M x2 = Some (fin f2) ->
  (forall idx, inb (t_shape (A y)) idx -> al * f1 (fib axis 0 idx) * f2 idx = f' idx) ->
  runs_nd (prod_fiber3_async (A x1) (Fin al) (A x2) (A y) axis) s (has (upd y (Some (fin f')) M)).
Proof. intros HM Hx1 Hx2 Hy Hn1 Hn2 Hm Ht Ex1 Ex2 Hg. eapply h_lift; [eassumption|eassumption| |exact Hg]. apply x_prod_fiber3; hside. Qed.
Lemma h_sum_fiber (al be : R) M s x y axis b f g f' : has M s -> U x -> U y -> x <> y -> fiber_match (A x) (A y) axis b ->
  M x = Some (fin f) -> M y = Some (fin g) ->
  (forall d, inb (t_shape (A y)) d -> be * g d + al * fiber_sum (t_shape (A x)) axis b d f = f' d) ->
  runs_nd (sum_fiber_async (Fin al) (A x) (Fin be) (A y) axis b false) s (has (upd y (Some (fin f')) M)).
Proof. intros HM Hx Hy Hn Hm Ex Ey Hg. eapply h_lift; [eassumption|eassumption| |exact Hg]. apply x_sum_fiber; hside. Qed.
Lemma h_sumprod_fiber (al be : R) M s x1 x2 y axis f1 f2 g f' : has M s -> U x1 -> U x2 -> U y -> x1 <> y -> x2 <> y ->
  fiber_match (A x1) (A y) axis 0 -> same_tiling (A x2) (A x1) -> M x1 = Some (fin f1) -> M x2 = Some (fin f2) -> M y = Some (fin g) ->
  (forall d, inb (t_shape (A y)) d -> be * g d + al * fiber_sum (t_shape (A x1)) axis 0 d (fun idx => f1 idx * f2 idx) = f' d) ->
  runs_nd (sumprod_fiber_async (Fin al) (A x1) (A x2) (Fin be) (A y) axis false) s (has (upd y (Some (fin f')) M)).
Proof. intros HM Hx1 Hx2 Hy Hn1 Hn2 Hm Ht Ex1 Ex2 Ey Hg. eapply h_lift; [eassumption|eassumption| |exact Hg]. apply x_sumprod_fiber; hside. Qed.

(** *** Matrix products *)
Lemma inb_app_elim (s1 s2 : list Z) (P : list Z -> Prop) (idx : list Z) : inb (s1 ++ s2) idx -> (forall a b, inb s1 a -> inb s2 b -> P (a ++ b)) -> P idx.
Proof.
  revert idx P. induction s1 as [|d s1 IH]; intros idx P Hi H.
  - apply (H [] idx); [constructor|assumption].
  - inversion Hi as [|? i ? idx' Hd Hi']; subst. apply (IH idx' (fun l => P (i :: l)) Hi'). intros a b Ha Hb.
    apply (H (i :: a) b); [constructor; assumption|assumption].
Qed.
Lemma h_gemm (al be : R) tA tB M s xa xb y ndim batch fa fb g f' sm sk sn sb bm bk bn bb :
  has M s -> U xa -> U xb -> U y -> xa <> y -> xb <> y ->
  t_shape (A xa) = op_dims tA sm sk sb -> t_base (A xa) = op_dims tA bm bk bb ->
  t_shape (A xb) = op_dims tB sk sn sb -> t_base (A xb) = op_dims tB bk bn bb ->
  t_shape (A y) = sm ++ sn ++ sb -> t_base (A y) = bm ++ bn ++ bb ->
  zlen sk = ndim -> zlen bk = ndim -> zlen sb = batch -> zlen bb = batch ->
  M xa = Some (fin fa) -> M xb = Some (fin fb) -> (be = 0 \/ M y = Some (fin g)) ->
  (forall mi ni bi, inb sm mi -> inb sn ni -> inb sb bi ->
     be * g (mi ++ ni ++ bi) + al * Rsuml (all_idx sk) (fun ki => fa (op_dims tA mi ki bi) * fb (op_dims tB ki ni bi)) = f' (mi ++ ni ++ bi)) ->
  runs_nd (gemm_async (Fin al) tA (A xa) tB (A xb) (Fin be) (A y) ndim batch false) s (has (upd y (Some (fin f')) M)).
Proof.
  intros HM Ha Hb Hy Na Nb E1 F1 E2 F2 E3 F3 L1 L1' L2 L2' Ea Eb Ey Hg.
  eapply (h_lift M s y _ f'); [eassumption|eassumption| |reflexivity].
  eapply runs_weaken; [eapply (x_gemm al be tA tB (A xa) (A xb) (A y) ndim batch s fa fb g sm sk sn sb bm bk bn bb); try hside|].
  - destruct Ey; [left; assumption|right; hside].
  - intros s' _ [H1 H2]. split; [|assumption]. intros idx Hi. rewrite E3 in Hi.
    pattern idx. apply (inb_app_elim _ _ _ _ Hi). intros mi r Hmi Hr. pattern r. apply (inb_app_elim _ _ _ _ Hr). intros ni bi Hni Hbi.
    rewrite H1 by assumption. unfold fin. f_equal. apply Hg; assumption.
Qed.
Lemma h_transpose M s x y ndim f f' : has M s -> U x -> U y -> x <> y -> transpose_match (A x) (A y) ndim -> M x = Some (fin f) ->
  (forall idx, inb (t_shape (A x)) idx -> f idx = f' (rot ndim idx)) ->
  runs_nd (transpose_async (Fin 1) (A x) (A y) ndim) s (has (upd y (Some (fin f')) M)).
Proof.
  intros HM Hx Hy Hn Hm Ex Hg. eapply (h_lift M s y _ f'); [eassumption|eassumption| |reflexivity].
  eapply runs_weaken; [apply (proj1 (C26_transpose (T := XR) (Fin 1) (A x) (A y) ndim s (UW x Hx) (UW y Hy))); hside|].
  intros s' _ [H1 H2]. split; [|assumption]. intros idx Hi.
  destruct Hm as (Hr & Es & Eb). rewrite Es in Hi. unfold rot in Hi.
  pattern idx. apply (inb_app_elim _ _ _ _ Hi). intros a b Ia Ib.
  assert (Hin : inb (t_shape (A x)) (b ++ a)).
  { rewrite <- (firstn_skipn (Z.to_nat ndim) (t_shape (A x))). apply inb_app; assumption. }
  assert (Er : rot ndim (b ++ a) = a ++ b).
  { replace ndim with (zlen b) by (rewrite <- (inb_zlen _ _ Ib); apply zlen_firstn; lia). apply rot_app. }
  pose proof (H1 _ Hin) as H3. rewrite Er in H3. rewrite H3.
  rewrite (has_val M s x _ HM Hx Ex) by assumption. unfold fin. cbn [o_mul Xops x_mul]. f_equal. rewrite Rmult_1_l, Hg by assumption. rewrite Er. reflexivity.
Qed.
End Has.
