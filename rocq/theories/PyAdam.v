(** * Adam optimizers (optimizer/adam.py, optimizer/adamw.py)

    Model (first section), specification and proofs.  The wont_use and invalidate_submit hints are
    left out; the coefficients Python computes in double precision are computed in the arithmetic
    of the tensors. *)
From Coq Require Import Reals Lra FunctionalExtensionality.
From Coquelicot Require Import Coquelicot.
From Verif Require Import Base Spec Geometry Traits TraitsProofs Runtime Ops RealOps TensorSem OneOut ElemOps Formulas PropDeriv Axis Sequence XReals NdRuns AnyRuns RSum MatOps PropElem PropElem2 PropElemR XTriples HasRuns TapeMath VjpMath Tape PyLayers PyLinear PySimple PyNorm Backprop Frob CeLoss.
Local Close Scope Z_scope.
Local Open Scope R_scope.

Section Prog.
Context {T : Type} {O : Ops T}.
(** adam.py:60-99, for one parameter: [fm], [sm], [mx] are self.first_moments[i],
    self.second_moments[i], self.max_second_moments[i] *)
Definition adam_one (lr b1 b2 wd eps : T) (amsgrad : bool) (num_iter : Z) (p : moments) (fm sm mx : tensor) : res (list (task T)) :=
  let step_size := o_div (o_neg lr) (o_sub o_one (o_pow b1 (o_ofZ num_iter))) in
  let scale_factor := o_sqrt (o_sub o_one (o_pow b2 (o_ofZ num_iter))) in
  pyseq [py_if (negb (o_eqb wd o_zero)) (axpy_async wd (m_val p) (m_grad p));
         (if (num_iter =? 1)%Z then pyseq [clear_async fm; add_async (o_sub o_one b1) (m_grad p) o_zero fm]
          else add_async (o_sub o_one b1) (m_grad p) b1 fm);
         py_if (num_iter =? 1)%Z (pyseq [clear_async sm; py_if amsgrad (clear_async mx)]);
         hypot_async (o_sqrt (o_sub o_one b2)) (m_grad p) (o_sqrt b2) sm;
         (if amsgrad
          then pyseq [maximum_async sm mx;
                      addcdiv_async (o_div step_size scale_factor) (o_mul eps scale_factor) fm mx (m_val p)]
          else addcdiv_async (o_mul step_size scale_factor) (o_mul eps scale_factor) fm sm (m_val p))].
(** adam.py:60-99, all parameters *)
Definition adam_all (lr b1 b2 wd eps : T) (amsgrad : bool) (num_iter : Z) (ps : list (moments * (tensor * tensor * tensor))) : res (list (task T)) :=
  pyseq (map (fun q => let '(p, (fm, sm, mx)) := q in adam_one lr b1 b2 wd eps amsgrad num_iter p fm sm mx) ps).
(** adam.py:192-194, adamw.py:57-61: the learning rate of an iteration; [warm] is
    (start_lr, full_lr_iter) when both are given *)
Definition warmup_lr (lr : T) (warm : option (T * Z)) (num_iter : Z) : T :=
  match warm with
  | Some (start_lr, full) =>
      if ((num_iter <? full)%Z && (1 <? full)%Z)%bool
      then o_add (o_mul (o_div (o_sub lr start_lr) (o_ofZ (full - 1)%Z)) (o_ofZ (num_iter - 1)%Z)) start_lr
      else lr
  | None => lr
  end.
(** adam.py:190-207: FusedAdam.step; tensor.py:778-793 *)
Definition fused_adam_all (lr b1 b2 wd eps : T) (warm : option (T * Z)) (num_iter : Z) (ps : list (moments * (tensor * tensor * tensor))) : res (list (task T)) :=
  pyseq (map (fun q => let '(p, (fm, sm, mx)) := q in
    adam_step_async num_iter b1 b2 eps (warmup_lr lr warm num_iter) wd (m_grad p) fm sm (m_val p)) ps).
(** adamw.py:56-73: FusedAdamW.step; tensor.py:795-810 *)
Definition fused_adamw_all (lr b1 b2 wd eps : T) (warm : option (T * Z)) (num_iter : Z) (ps : list (moments * (tensor * tensor * tensor))) : res (list (task T)) :=
  pyseq (map (fun q => let '(p, (fm, sm, mx)) := q in
    adamw_step_async num_iter b1 b2 eps (warmup_lr lr warm num_iter) wd (m_grad p) fm sm (m_val p)) ps).
End Prog.

(** ** Specification: Adam and AdamW.  [m], [v]: first and second moment, zero before the first
    step; [n]: the number of this step, from 1 *)
Section Spec.
Variables (lr b1 b2 wd eps : R) (n : nat).
Definition ad_m (m g : R) : R := b1 * m + (1 - b1) * g.
Definition ad_v (v g : R) : R := b2 * v + (1 - b2) * (g * g).
(** the step from [p] with bias-corrected moments *)
Definition ad_new (p m v : R) : R := p - lr * (m / (1 - b1 ^ n)) / (sqrt (v / (1 - b2 ^ n)) + eps).
(** Adam: weight decay added to the gradient; AdamW: the parameter decays first *)
Definition ad_g (decoupled : bool) (p g : R) : R := if decoupled then g else g + wd * p.
Definition ad_p (decoupled : bool) (p : R) : R := if decoupled then p - lr * wd * p else p.
End Spec.
(** Linear warm-up of the learning rate. *)
Definition warm_lr (lr : R) (warm : option (R * Z)) (n : nat) : R :=
  match warm with
  | Some (start, full) => if ((Z.of_nat n <? full) && (1 <? full))%Z then start + (lr - start) * IZR (Z.of_nat n - 1) / IZR (full - 1) else lr
  | None => lr
  end.

Lemma ad_v_pos b2 v g : 0 < b2 < 1 -> 0 <= v -> 0 <= ad_v b2 v g.
Proof. intros. unfold ad_v. pose proof (Rle_0_sqr g). unfold Rsqr in *. apply Rplus_le_le_0_compat; apply Rmult_le_pos; lra. Qed.
Lemma pow_lt_1 b n : 0 <= b < 1 -> (1 <= n)%nat -> 0 <= b ^ n < 1.
Proof.
  intros Hb Hn. destruct n as [|n]; [lia|]. cbn [pow]. assert (0 <= b ^ n <= 1).
  { induction n as [|n IH]; cbn [pow]; [lra|]. specialize (IH ltac:(lia)). split; [apply Rmult_le_pos; lra|]. rewrite <- (Rmult_1_l 1). apply Rmult_le_compat; lra. }
  split; [apply Rmult_le_pos; lra|]. apply Rle_lt_trans with (b * 1); [apply Rmult_le_compat_l; lra|lra].
Qed.
(** what the code computes is the specification *)
Lemma hypot_ad_v b2 v g : 0 < b2 < 1 -> 0 <= v ->
  sqrt (sqrt (1 - b2) * g * (sqrt (1 - b2) * g) + sqrt b2 * sqrt v * (sqrt b2 * sqrt v)) = sqrt (ad_v b2 v g).
Proof.
  intros Hb Hv. f_equal. unfold ad_v.
  replace (sqrt (1 - b2) * g * (sqrt (1 - b2) * g)) with (sqrt (1 - b2) * sqrt (1 - b2) * (g * g)) by ring.
  replace (sqrt b2 * sqrt v * (sqrt b2 * sqrt v)) with (sqrt b2 * sqrt b2 * (sqrt v * sqrt v)) by ring.
  rewrite !sqrt_sqrt by lra. ring.
Qed.
Lemma addcdiv_ad_new lr b1 b2 eps n p m v : 0 <= b1 < 1 -> 0 < b2 < 1 -> 0 < eps -> (1 <= n)%nat -> 0 <= v ->
  p + (- lr / (1 - b1 ^ n) * sqrt (1 - b2 ^ n)) * m / (sqrt v + eps * sqrt (1 - b2 ^ n)) = ad_new lr b1 b2 eps n p m v.
Proof.
  intros Hb1 Hb2 He Hn Hv. unfold ad_new.
  destruct (pow_lt_1 b1 n Hb1 Hn) as [_ Q1]. destruct (pow_lt_1 b2 n ltac:(lra) Hn) as [_ Q2].
  assert (Q3 : 0 < sqrt (1 - b2 ^ n)) by (apply sqrt_lt_R0; lra). rewrite sqrt_div_alt by lra.
  pose proof (sqrt_pos v) as Q4. assert (0 < eps * sqrt (1 - b2 ^ n)) by (apply Rmult_lt_0_compat; assumption).
  assert (0 <= sqrt v / sqrt (1 - b2 ^ n)) by (apply Rmult_le_pos; [assumption|apply Rlt_le, Rinv_0_lt_compat; assumption]).
  field. repeat split; lra.
Qed.

Section Adam.
Context {E : env} (req : nat -> bool).

(** ** Operations on known contents *)
Lemma h_addg (al be : R) M s x y f g f' : al <> 0 -> has M s -> U x -> U y -> x <> y -> same_tiling (A x) (A y) -> M x = Some (fin f) ->
  (be = 0 \/ M y = Some (fin g)) ->
  (forall idx, inb (t_shape (A y)) idx -> al * f idx + be * g idx = f' idx) ->
  runs_nd (add_async (Fin al) (A x) (Fin be) (A y)) s (has (upd y (Some (fin f')) M)).
Proof.
  intros Ha HM Hx Hy Hn Ht Ex Ey Hg. destruct (Req_EM_T be 0) as [->|Hb].
  - rewrite add_beta0.
    + apply (h_binary0 (scal_async (Fin al)) (fun a => if o_eqb (Fin al) o_zero then o_zero else o_mul (Fin al) a) (fun a => al * a)) with (f := f); try assumption.
      * apply C14_scal_generic.
      * intros a. rewrite x_eqb0. destruct (Reqb al 0) eqn:Eq; [apply Reqb_true in Eq; contradiction|reflexivity].
      * intros idx Hi. rewrite <- Hg by assumption. ring.
    + cbn. apply Reqb_true. reflexivity.
    + cbn. apply Reqb_false. lra.
  - destruct Ey as [|Ey]; [contradiction|].
    assert (Za : o_eqb (Fin al) o_zero = false) by (rewrite x_eqb0; apply Reqb_false; assumption).
    assert (Zb : o_eqb (Fin be) o_zero = false) by (rewrite x_eqb0; apply Reqb_false; assumption).
    apply (h_binary (fun src dst => add_async (Fin al) src (Fin be) dst) _ (fun a b => al * a + be * b) M s x y f g f'
      (C13_add_generic (T := XR) (Fin al) (Fin be) Za Zb)); try assumption.
    reflexivity.
Qed.
Lemma h_hypot (al be : R) M s x y f g f' : al <> 0 -> be <> 0 -> has M s -> U x -> U y -> x <> y -> same_tiling (A x) (A y) ->
  M x = Some (fin f) -> M y = Some (fin g) ->
  (forall idx, inb (t_shape (A y)) idx -> sqrt (al * f idx * (al * f idx) + be * g idx * (be * g idx)) = f' idx) ->
  runs_nd (hypot_async (Fin al) (A x) (Fin be) (A y)) s (has (upd y (Some (fin f')) M)).
Proof.
  intros Ha Hb HM Hx Hy Hn Ht Ex Ey Hg.
  apply (h_binary (fun src dst => hypot_async (Fin al) src (Fin be) dst) (fun x d => f_hypot (Fin al) x (Fin be) d) (fun a b => f_hypot al a be b)) with (f := f) (g := g); try assumption.
  - apply C15_hypot_generic.
    + cbn. intros Eq. apply Reqb_true in Eq. contradiction.
    + cbn. rewrite (proj2 (Reqb_false _ _) Ha). reflexivity.
  - intros a b. apply x_f_hypot.
  - intros idx Hi. rewrite <- Hg by assumption. unfold f_hypot. cbn. rewrite (proj2 (Reqb_false _ _) Ha), (proj2 (Reqb_false _ _) Hb). reflexivity.
Qed.
Lemma h_maximum M s x y f g f' : has M s -> U x -> U y -> x <> y -> same_tiling (A x) (A y) -> M x = Some (fin f) -> M y = Some (fin g) ->
  (forall idx, inb (t_shape (A y)) idx -> Rmax (f idx) (g idx) = f' idx) ->
  runs_nd (maximum_async (A x) (A y)) s (has (upd y (Some (fin f')) M)).
Proof.
  apply (h_binary maximum_async _ Rmax M s x y f g f' C12_maximum). intros a b. cbn. unfold x_fmax. cbn.
  destruct (Rltb a b) eqn:Eq; [apply Rltb_true in Eq; rewrite Rmax_right by lra|apply Rltb_false in Eq; rewrite Rmax_left by lra]; reflexivity.
Qed.
Lemma h_addcdiv (val eps : R) M s xn xd y f1 f2 g f' : has M s -> U xn -> U xd -> U y -> xn <> y -> xd <> y -> same_tiling (A xn) (A y) -> same_tiling (A xd) (A y) ->
  M xn = Some (fin f1) -> M xd = Some (fin f2) -> M y = Some (fin g) ->
  (forall idx, inb (t_shape (A y)) idx -> f2 idx + eps <> 0 /\ g idx + val * f1 idx / (f2 idx + eps) = f' idx) ->
  runs_nd (addcdiv_async (Fin val) (Fin eps) (A xn) (A xd) (A y)) s (has (upd y (Some (fin f')) M)).
Proof.
  intros HM Hx1 Hx2 Hy Hn1 Hn2 Ht1 Ht2 E1 E2 Ey Hg. apply (h_lift M s y _ f'); try assumption; [|reflexivity].
  eapply runs_weaken; [apply (proj1 (C12_addcdiv (Fin val) (Fin eps) (A xn) (A xd) (A y) s (UW xn Hx1) (UW xd Hx2) (UW y Hy))); first [assumption|eapply has_st; eassumption|apply UD; assumption]|].
  intros s' _ [H1 H2]. split; [|assumption]. intros idx Hi. rewrite H1 by assumption. destruct (Hg idx Hi) as [Hne Hq]. unfold fin at 1. rewrite <- Hq.
  rewrite (has_val M s y _ HM Hy Ey) by assumption. rewrite (has_val M s xn _ HM Hx1 E1) by (destruct Ht1 as [-> _]; assumption).
  rewrite (has_val M s xd _ HM Hx2 E2) by (destruct Ht2 as [-> _]; assumption). unfold fin. cbn. rewrite (proj2 (Reqb_false _ _) Hne). reflexivity.
Qed.

(** ** One parameter *)
Record adam_param_ok (k1 k2 k3 : nat) (ams : bool) (p : nat) : Prop := {
  ap_node : node_ok req p; ap_req : req p = true;
  ap_m : U (Tmp k1 p) /\ same_tiling (A (Tmp k1 p)) (A (Val p));
  ap_v : U (Tmp k2 p) /\ same_tiling (A (Tmp k2 p)) (A (Val p));
  ap_x : ams = true -> U (Tmp k3 p) /\ same_tiling (A (Tmp k3 p)) (A (Val p))
}.
(** hyperparameters in the usual ranges *)
Definition hyper (b1 b2 eps : R) : Prop := 0 <= b1 < 1 /\ 0 < b2 < 1 /\ 0 < eps.

Lemma x_pow (b : R) (n : nat) : o_pow (Fin b) (o_ofZ (Z.of_nat n)) = Fin (b ^ n).
Proof. change (x_map2 Rcpow (Fin b) (Fin (IZR (Z.of_nat n))) = Fin (b ^ n)). cbn [x_map2]. rewrite Rcpow_nat. reflexivity. Qed.

(** The moments the tensors hold before step [n] (nothing before the first) *)
Definition ad_held (k1 k2 : nat) (n p : nat) (m v : arr) (M : smap) : Prop :=
  (n = 1%nat -> (forall i, m i = 0) /\ (forall i, v i = 0)) /\
  (n <> 1%nat -> M (Tmp k1 p) = Some (fin m) /\ M (Tmp k2 p) = Some (fin (fun i => sqrt (v i)))).

Section One.
Variables (lr b1 b2 wd eps : R) (n k1 k2 k3 p : nat).
Hypothesis Hh : hyper b1 b2 eps.
Hypothesis Hn : (1 <= n)%nat.
Hypothesis H12 : k1 <> k2.
Hypothesis H13 : k1 <> k3.
Hypothesis H23 : k2 <> k3.

Definition ad_keep (M M' : smap) : Prop :=
  forall x, x <> Val p -> x <> Grad p -> x <> Tmp k1 p -> x <> Tmp k2 p -> x <> Tmp k3 p -> M' x = M x.

Lemma isone : (Z.of_nat n =? 1)%Z = true <-> n = 1%nat.
Proof. rewrite Z.eqb_eq. lia. Qed.

(** the first four statements of the loop: gradient with weight decay, moments *)
Lemma adam_moments ams M s V G m v (rest : list (res (list (task XR)))) Q :
  adam_param_ok k1 k2 k3 ams p -> has M s -> M (Val p) = Some (fin V) -> M (Grad p) = Some (fin G) ->
  (forall i, 0 <= v i) -> ad_held k1 k2 n p m v M ->
  let g := fun i => G i + wd * V i in
  (forall s' M', has M' s' -> M' (Val p) = Some (fin V) -> M' (Tmp k1 p) = Some (fin (fun i => ad_m b1 (m i) (g i))) ->
     M' (Tmp k2 p) = Some (fin (fun i => sqrt (ad_v b2 (v i) (g i)))) ->
     (n = 1%nat -> ams = true -> M' (Tmp k3 p) = Some (fin (fun _ => 0))) ->
     (n <> 1%nat -> M' (Tmp k3 p) = M (Tmp k3 p)) -> ad_keep M M' -> runs_nd (pyseq rest) s' Q) ->
  runs_nd (pyseq ([py_if (negb (o_eqb (Fin wd) o_zero)) (axpy_async (Fin wd) (A (Val p)) (A (Grad p)));
         (if (Z.of_nat n =? 1)%Z then pyseq [clear_async (A (Tmp k1 p)); add_async (o_sub o_one (Fin b1)) (A (Grad p)) o_zero (A (Tmp k1 p))]
          else add_async (o_sub o_one (Fin b1)) (A (Grad p)) (Fin b1) (A (Tmp k1 p)));
         py_if (Z.of_nat n =? 1)%Z (pyseq [clear_async (A (Tmp k2 p)); py_if ams (clear_async (A (Tmp k3 p)))]);
         hypot_async (o_sqrt (o_sub o_one (Fin b2))) (A (Grad p)) (o_sqrt (Fin b2)) (A (Tmp k2 p))] ++ rest)) s Q.
Proof.
  intros [[Uv Hg] Hr [Um Sm] [Us Ss] Hx] HM Ev Eg Hv [Hh1 Hh2] g Hrest. destruct (Hg Hr) as [Ug Sg]. destruct Hh as (Hb1 & Hb2 & He).
  assert (Sgm : same_tiling (A (Grad p)) (A (Tmp k1 p))) by (apply (same_trans _ (A (Val p))); [assumption|apply same_sym; assumption]).
  assert (Sgs : same_tiling (A (Grad p)) (A (Tmp k2 p))) by (apply (same_trans _ (A (Val p))); [assumption|apply same_sym; assumption]).
  cbn [app].
  eapply (py_cons _ _ _ (has (upd (Grad p) (Some (fin g)) M))).
  { change (o_eqb (Fin wd) o_zero) with (Reqb wd 0). destruct (Reqb wd 0) eqn:Ew; cbn [negb py_if].
    - apply Reqb_true in Ew. apply nd_nop. eapply has_sub; [exact HM|]. intros x f _. unfold upd. destruct (gvar_dec x (Grad p)) as [->|]; [|auto].
      intros Hf. rewrite Eg, <- Hf. f_equal. f_equal. apply functional_extensionality. intros i. unfold g. rewrite Ew. ring.
    - apply (h_axpy wd M s (Val p) (Grad p) V G g HM); try assumption; [discriminate|apply same_sym; assumption|]. intros i _. unfold g. ring. }
  intros s1 H1.
  set (m' := fun i => ad_m b1 (m i) (g i)). set (v' := fun i => sqrt (ad_v b2 (v i) (g i))).
  change (o_sub o_one (Fin b1)) with (Fin (1 - b1)). change (@o_zero XR _) with (Fin 0).
  assert (Hal : 1 - b1 <> 0) by lra.
  eapply (py_cons _ _ _ (has (upd (Tmp k1 p) (Some (fin m')) (upd (Grad p) (Some (fin g)) M)))).
  { destruct (Z.of_nat n =? 1)%Z eqn:E1.
    - apply isone in E1. destruct (Hh1 E1) as [Z1 _].
      eapply py_cons; [apply (h_clear _ s1 (Tmp k1 p) (fun _ => 0) H1 Um); reflexivity|]. intros s2 H2. rewrite pyseq_1.
      eapply nd_weaken; [apply (h_addg (1 - b1) 0 _ s2 (Grad p) (Tmp k1 p) g (fun _ => 0) m' Hal H2); try assumption; try discriminate|].
      + rewrite upd_ne by discriminate. apply upd_eq.
      + left. reflexivity.
      + intros i _. unfold m', ad_m. rewrite Z1. ring.
      + intros s3 _ H3. eapply has_sub; [exact H3|]. intros x f _. unfold upd. destruct (gvar_dec x (Tmp k1 p)); auto.
    - assert (Hn1 : n <> 1%nat) by (intros C; apply isone in C; congruence). destruct (Hh2 Hn1) as [Em _].
      apply (h_addg (1 - b1) b1 _ s1 (Grad p) (Tmp k1 p) g m m' Hal H1); try assumption; try discriminate.
      + apply upd_eq.
      + right. rewrite upd_ne by discriminate. assumption.
      + intros i _. unfold m', ad_m. ring. }
  intros s2 H2.
  set (M2 := upd (Tmp k1 p) (Some (fin m')) (upd (Grad p) (Some (fin g)) M)) in *.
  set (M3 := fun x => if gvar_dec x (Tmp k2 p) then Some (fin (fun i => sqrt (v i)))
     else if gvar_dec x (Tmp k3 p) then (if (n =? 1)%nat then if ams then Some (fin (fun _ => 0)) else M2 x else M2 x) else M2 x).
  eapply (py_cons _ _ _ (has M3)).
  { destruct (Z.of_nat n =? 1)%Z eqn:E1; cbn [py_if].
    - apply isone in E1. destruct (Hh1 E1) as [_ Z1].
      eapply py_cons; [apply (h_clear M2 s2 (Tmp k2 p) (fun i => sqrt (v i)) H2 Us)|]. { intros i _. rewrite Z1, sqrt_0. reflexivity. }
      intros s3 H3. rewrite pyseq_1. destruct ams; cbn [py_if].
      + destruct (Hx eq_refl) as [Ux _]. eapply nd_weaken; [apply (h_clear _ s3 (Tmp k3 p) (fun _ => 0) H3 Ux); reflexivity|].
        intros s4 _ H4. eapply has_sub; [exact H4|]. intros x f _. unfold M3. subst n. cbn [Nat.eqb]. unfold upd.
        destruct (gvar_dec x (Tmp k3 p)) as [->|]; [|auto]. destruct (gvar_dec (Tmp k3 p) (Tmp k2 p)); [congruence|auto].
      + apply nd_nop. eapply has_sub; [exact H3|]. intros x f _. unfold M3. subst n. cbn [Nat.eqb]. unfold upd.
        destruct (gvar_dec x (Tmp k2 p)); [auto|]. destruct (gvar_dec x (Tmp k3 p)); auto.
    - assert (Hn1 : n <> 1%nat) by (intros C; apply isone in C; congruence). destruct (Hh2 Hn1) as [_ Es].
      apply nd_nop. eapply has_sub; [exact H2|]. intros x f _. unfold M3. apply Nat.eqb_neq in Hn1. rewrite Hn1.
      destruct (gvar_dec x (Tmp k2 p)) as [->|]; [|destruct (gvar_dec x (Tmp k3 p)); auto]. intros Hf. unfold M2. rewrite !upd_ne by congruence. rewrite Es. exact Hf. }
  intros s3 H3.
  change (o_sub o_one (Fin b2)) with (Fin (1 - b2)). change (@o_sqrt XR _) with x_sqrt. rewrite !x_sqrt_fin by lra.
  assert (P1 : 0 < sqrt (1 - b2)) by (apply sqrt_lt_R0; lra). assert (P2 : 0 < sqrt b2) by (apply sqrt_lt_R0; lra).
  eapply py_cons; [apply (h_hypot (sqrt (1 - b2)) (sqrt b2) M3 s3 (Grad p) (Tmp k2 p) g (fun i => sqrt (v i)) v'); try assumption; try lra; try discriminate|].
  { unfold M3, M2, upd. destruct (gvar_dec (Grad p) (Tmp k2 p)); [discriminate|]. destruct (gvar_dec (Grad p) (Tmp k3 p)); [discriminate|].
    destruct (gvar_dec (Grad p) (Tmp k1 p)); [discriminate|]. destruct (gvar_dec (Grad p) (Grad p)); [reflexivity|congruence]. }
  { unfold M3. destruct (gvar_dec (Tmp k2 p) (Tmp k2 p)); [reflexivity|congruence]. }
  { intros i _. apply hypot_ad_v; [lra|apply Hv]. }
  intros s4 H4. apply (Hrest s4 _ H4).
  - unfold upd, M3, M2. repeat match goal with |- context [gvar_dec ?a ?b] => destruct (gvar_dec a b) as [C|_]; [discriminate C|] end. unfold upd.
    repeat match goal with |- context [gvar_dec ?a ?b] => destruct (gvar_dec a b) as [C|_]; [discriminate C|] end. assumption.
  - unfold upd, M3. destruct (gvar_dec (Tmp k1 p) (Tmp k2 p)); [congruence|]. destruct (gvar_dec (Tmp k1 p) (Tmp k3 p)); [congruence|]. apply upd_eq.
  - apply upd_eq.
  - intros C1 C2. unfold upd, M3. destruct (gvar_dec (Tmp k3 p) (Tmp k2 p)); [congruence|]. destruct (gvar_dec (Tmp k3 p) (Tmp k3 p)); [|congruence]. rewrite C1, C2. reflexivity.
  - intros C1. unfold upd, M3. destruct (gvar_dec (Tmp k3 p) (Tmp k2 p)); [congruence|]. destruct (gvar_dec (Tmp k3 p) (Tmp k3 p)); [|congruence].
    apply Nat.eqb_neq in C1. rewrite C1. unfold M2. rewrite !upd_ne by congruence. reflexivity.
  - intros x N1 N2 N3 N4 N5. unfold upd, M3, M2, upd. repeat match goal with |- context [gvar_dec ?a ?b] => destruct (gvar_dec a b); [contradiction|] end. reflexivity.
Qed.

(** Adam.step without amsgrad *)
Lemma adam_one_has M s V G m v : adam_param_ok k1 k2 k3 false p -> has M s -> M (Val p) = Some (fin V) -> M (Grad p) = Some (fin G) ->
  (forall i, 0 <= v i) -> ad_held k1 k2 n p m v M ->
  let g := fun i => G i + wd * V i in
  runs_nd (adam_one (Fin lr) (Fin b1) (Fin b2) (Fin wd) (Fin eps) false (Z.of_nat n) (node req p) (A (Tmp k1 p)) (A (Tmp k2 p)) (A (Tmp k3 p))) s
    (fun s' => exists M', has M' s' /\
      M' (Val p) = Some (fin (fun i => ad_new lr b1 b2 eps n (V i) (ad_m b1 (m i) (g i)) (ad_v b2 (v i) (g i)))) /\
      M' (Tmp k1 p) = Some (fin (fun i => ad_m b1 (m i) (g i))) /\ M' (Tmp k2 p) = Some (fin (fun i => sqrt (ad_v b2 (v i) (g i)))) /\ ad_keep M M').
Proof.
  intros Hp HM Ev Eg Hv Hheld g. unfold adam_one. cbv zeta. cbn [m_val m_grad node].
  pose proof Hp as [[Uv _] _ [Um Sm] [Us Ss] _]. destruct Hh as (Hb1 & Hb2 & He).
  destruct (pow_lt_1 b1 n Hb1 Hn) as [_ Q1]. destruct (pow_lt_1 b2 n ltac:(lra) Hn) as [_ Q2].
  eapply (adam_moments false M s V G m v [_] _ Hp HM Ev Eg Hv Hheld).
  intros s4 M4 H4 Ev4 Em4 Es4 _ _ K4. rewrite pyseq_1.
  rewrite !x_pow. change (o_sub o_one (Fin ?x)) with (Fin (1 - x)). change (o_neg (Fin lr)) with (Fin (- lr)).
  change (@o_sqrt XR _) with x_sqrt. rewrite x_sqrt_fin by lra. change (@o_div XR _) with x_div. rewrite x_div_fin by lra.
  change (o_mul (Fin ?x) (Fin ?y)) with (Fin (x * y)).
  assert (P : 0 < sqrt (1 - b2 ^ n)) by (apply sqrt_lt_R0; lra).
  eapply nd_weaken; [eapply (h_addcdiv _ _ M4 s4 (Tmp k1 p) (Tmp k2 p) (Val p) (fun i => ad_m b1 (m i) (g i)) (fun i => sqrt (ad_v b2 (v i) (g i))) V
    (fun i => ad_new lr b1 b2 eps n (V i) (ad_m b1 (m i) (g i)) (ad_v b2 (v i) (g i))) H4 Um Us Uv); try eassumption; try discriminate|].
  - intros i _. cbv beta. assert (Pv : 0 <= ad_v b2 (v i) (g i)) by (apply ad_v_pos; [lra|apply Hv]).
    pose proof (sqrt_pos (ad_v b2 (v i) (g i))). assert (0 < eps * sqrt (1 - b2 ^ n)) by (apply Rmult_lt_0_compat; assumption).
    split; [apply Rgt_not_eq; lra|]. apply addcdiv_ad_new; assumption.
  - intros s5 _ H5. eexists. split; [exact H5|]. split; [apply upd_eq|]. split; [rewrite upd_ne by discriminate; exact Em4|].
    split; [rewrite upd_ne by discriminate; exact Es4|]. intros x N1 N2 N3 N4 N5. rewrite upd_ne by assumption. apply K4; assumption.
Qed.

(** Adam.step with amsgrad: [w] is the running maximum of the second moments.  The step taken is
    the AMSGrad step with the learning rate divided by 1 - b2^n. *)
Lemma adam_one_ams M s V G m v w : adam_param_ok k1 k2 k3 true p -> has M s -> M (Val p) = Some (fin V) -> M (Grad p) = Some (fin G) ->
  (forall i, 0 <= v i) -> (forall i, 0 <= w i) -> ad_held k1 k2 n p m v M ->
  (n = 1%nat -> forall i, w i = 0) -> (n <> 1%nat -> M (Tmp k3 p) = Some (fin (fun i => sqrt (w i)))) ->
  let g := fun i => G i + wd * V i in let w' := fun i => Rmax (w i) (ad_v b2 (v i) (g i)) in
  runs_nd (adam_one (Fin lr) (Fin b1) (Fin b2) (Fin wd) (Fin eps) true (Z.of_nat n) (node req p) (A (Tmp k1 p)) (A (Tmp k2 p)) (A (Tmp k3 p))) s
    (fun s' => exists M', has M' s' /\
      M' (Val p) = Some (fin (fun i => ad_new (lr / (1 - b2 ^ n)) b1 b2 eps n (V i) (ad_m b1 (m i) (g i)) (w' i))) /\
      M' (Tmp k1 p) = Some (fin (fun i => ad_m b1 (m i) (g i))) /\ M' (Tmp k2 p) = Some (fin (fun i => sqrt (ad_v b2 (v i) (g i)))) /\
      M' (Tmp k3 p) = Some (fin (fun i => sqrt (w' i))) /\ ad_keep M M').
Proof.
  intros Hp HM Ev Eg Hv Hw Hheld Hw0 Hw1 g w'. unfold adam_one. cbv zeta. cbn [m_val m_grad node].
  pose proof Hp as [[Uv _] _ [Um Sm] [Us Ss] Hx]. destruct (Hx eq_refl) as [Ux Sx]. destruct Hh as (Hb1 & Hb2 & He).
  destruct (pow_lt_1 b1 n Hb1 Hn) as [_ Q1]. destruct (pow_lt_1 b2 n ltac:(lra) Hn) as [_ Q2].
  eapply (adam_moments true M s V G m v [_] _ Hp HM Ev Eg Hv Hheld).
  intros s4 M4 H4 Ev4 Em4 Es4 Ex4 Ex4' K4. rewrite pyseq_1.
  rewrite !x_pow. change (o_sub o_one (Fin ?x)) with (Fin (1 - x)). change (o_neg (Fin lr)) with (Fin (- lr)).
  assert (P : 0 < sqrt (1 - b2 ^ n)) by (apply sqrt_lt_R0; lra).
  change (@o_sqrt XR _) with x_sqrt. rewrite x_sqrt_fin by lra. change (@o_div XR _) with x_div. rewrite !x_div_fin by lra.
  change (o_mul (Fin ?x) (Fin ?y)) with (Fin (x * y)).
  eapply py_cons.
  { apply (h_maximum M4 s4 (Tmp k2 p) (Tmp k3 p) (fun i => sqrt (ad_v b2 (v i) (g i))) (fun i => sqrt (w i)) (fun i => sqrt (w' i)) H4); try assumption; try congruence.
    - apply (same_trans _ (A (Val p))); [assumption|apply same_sym; assumption].
    - destruct (Nat.eq_dec n 1) as [En|En]; [|rewrite Ex4' by assumption; apply Hw1; assumption].
      rewrite Ex4 by auto. f_equal. f_equal. apply functional_extensionality. intros i. rewrite Hw0 by assumption. symmetry. apply sqrt_0.
    - intros i _. unfold w'. assert (0 <= ad_v b2 (v i) (g i)) by (apply ad_v_pos; [lra|apply Hv]). rewrite Rmax_comm.
      destruct (Rle_dec (w i) (ad_v b2 (v i) (g i))) as [L|L].
      + rewrite (Rmax_right (w i)) by assumption. apply Rmax_right. apply sqrt_le_1; auto.
      + rewrite (Rmax_left (w i)) by lra. apply Rmax_left. apply sqrt_le_1; auto; lra. }
  intros s5 H5. rewrite pyseq_1.
  eapply nd_weaken; [eapply (h_addcdiv _ _ _ s5 (Tmp k1 p) (Tmp k3 p) (Val p) (fun i => ad_m b1 (m i) (g i)) (fun i => sqrt (w' i)) V
    (fun i => ad_new (lr / (1 - b2 ^ n)) b1 b2 eps n (V i) (ad_m b1 (m i) (g i)) (w' i)) H5 Um Ux Uv); try eassumption; try discriminate|].
  - rewrite upd_ne by congruence. exact Em4.
  - apply upd_eq.
  - intros i _. cbv beta. assert (Pv : 0 <= w' i) by (unfold w'; apply Rle_trans with (w i); [apply Hw|apply Rmax_l]).
    pose proof (sqrt_pos (w' i)). assert (0 < eps * sqrt (1 - b2 ^ n)) by (apply Rmult_lt_0_compat; assumption).
    split; [apply Rgt_not_eq; lra|]. rewrite <- addcdiv_ad_new by assumption. f_equal. f_equal. f_equal.
    assert (Es : 1 - b2 ^ n = sqrt (1 - b2 ^ n) * sqrt (1 - b2 ^ n)) by (symmetry; apply sqrt_sqrt; lra).
    replace (- (lr / (1 - b2 ^ n))) with (- (lr / (sqrt (1 - b2 ^ n) * sqrt (1 - b2 ^ n)))) by (rewrite <- Es; reflexivity).
    field. lra.
  - intros s6 _ H6. eexists. split; [exact H6|]. split; [apply upd_eq|]. split; [rewrite !upd_ne by congruence; exact Em4|].
    split; [rewrite !upd_ne by congruence; exact Es4|]. split; [rewrite upd_ne by discriminate; apply upd_eq|].
    intros x N1 N2 N3 N4 N5. rewrite !upd_ne by assumption. apply K4; assumption.
Qed.

(** the fused kernels *)
Lemma x_adam_m (m g : R) : (n = 1%nat -> m = 0) -> forall x, (n <> 1%nat -> x = Fin m) -> adam_m (Z.of_nat n) (Fin b1) x (Fin g) = Fin (ad_m b1 m g).
Proof.
  intros H0 x Hx. unfold adam_m, ad_m. destruct (Z.of_nat n =? 1)%Z eqn:E1.
  - apply isone in E1. rewrite H0 by assumption. cbn. f_equal. ring.
  - rewrite Hx by (intros C; apply isone in C; congruence). reflexivity.
Qed.
Lemma x_adam_v (v g : R) : 0 <= v -> (n = 1%nat -> v = 0) -> forall x, (n <> 1%nat -> x = Fin (sqrt v)) ->
  adam_v (Z.of_nat n) (Fin b2) x (Fin g) = Fin (sqrt (ad_v b2 v g)).
Proof.
  intros Hv H0 x Hx. destruct Hh as (Hb1 & Hb2 & He). unfold adam_v. change (o_sub o_one (Fin b2)) with (Fin (1 - b2)).
  change (@o_sqrt XR _) with x_sqrt. rewrite !x_sqrt_fin by lra. destruct (Z.of_nat n =? 1)%Z eqn:E1.
  - apply isone in E1. rewrite H0 by assumption. cbn. f_equal. unfold ad_v. rewrite Rmult_0_r, Rplus_0_l.
    rewrite sqrt_mult_alt by lra. f_equal. symmetry. apply sqrt_Rsqr_abs.
  - rewrite Hx by (intros C; apply isone in C; congruence). change (Fin (Rhypot (sqrt b2 * sqrt v) (sqrt (1 - b2) * g)) = Fin (sqrt (ad_v b2 v g))).
    f_equal. rewrite <- hypot_ad_v by (lra || assumption). unfold Rhypot. f_equal. ring.
Qed.
Lemma x_adam_p (l p0 m v : R) : 0 <= v -> adam_p (Z.of_nat n) (Fin b1) (Fin b2) (Fin eps) (Fin l) (Fin p0) (Fin m) (Fin (sqrt v)) = Fin (ad_new l b1 b2 eps n p0 m v).
Proof.
  intros Hv. destruct Hh as (Hb1 & Hb2 & He). destruct (pow_lt_1 b1 n Hb1 Hn) as [_ Q1]. destruct (pow_lt_1 b2 n ltac:(lra) Hn) as [_ Q2].
  unfold adam_p. rewrite !x_pow. change (o_sub o_one (Fin ?x)) with (Fin (1 - x)). change (@o_sqrt XR _) with x_sqrt. rewrite x_sqrt_fin by lra.
  assert (P : 0 < sqrt (1 - b2 ^ n)) by (apply sqrt_lt_R0; lra). change (@o_one XR _) with (Fin 1). change (@o_div XR _) with x_div. rewrite !x_div_fin by lra.
  change (o_mul (Fin ?x) (Fin ?y)) with (Fin (x * y)). change (o_add (Fin ?x) (Fin ?y)) with (Fin (x + y)).
  pose proof (sqrt_pos v). assert (0 <= sqrt v * (1 / sqrt (1 - b2 ^ n))).
  { apply Rmult_le_pos; [assumption|]. unfold Rdiv. rewrite Rmult_1_l. apply Rlt_le, Rinv_0_lt_compat; assumption. }
  rewrite x_div_fin by (apply Rgt_not_eq; lra). change (o_sub (Fin ?x) (Fin ?y)) with (Fin (x - y)). f_equal. unfold ad_new.
  rewrite sqrt_div_alt by lra. assert (0 <= sqrt v / sqrt (1 - b2 ^ n)) by (unfold Rdiv in *; lra).
  assert (0 < eps * sqrt (1 - b2 ^ n)) by (apply Rmult_lt_0_compat; assumption).
  field. repeat split; lra.
Qed.

Lemma fused_has (dec : bool) (l : R) M s V G m v op fm fv fp : adam_correct (T := XR) op fm fv fp ->
  (forall g0 m0 v0 p0, fm g0 m0 v0 p0 = adam_m (Z.of_nat n) (Fin b1) m0 (if dec then g0 else adam_g (Fin wd) g0 p0)) ->
  (forall g0 m0 v0 p0, fv g0 m0 v0 p0 = adam_v (Z.of_nat n) (Fin b2) v0 (if dec then g0 else adam_g (Fin wd) g0 p0)) ->
  (forall g0 m0 v0 p0, fp g0 m0 v0 p0 = adam_p (Z.of_nat n) (Fin b1) (Fin b2) (Fin eps) (Fin l) (if dec then adamw_p (Fin wd) (Fin l) p0 else p0) (fm g0 m0 v0 p0) (fv g0 m0 v0 p0)) ->
  adam_param_ok k1 k2 k3 false p -> has M s -> M (Val p) = Some (fin V) -> M (Grad p) = Some (fin G) ->
  (forall i, 0 <= v i) -> ad_held k1 k2 n p m v M ->
  let g := fun i => ad_g wd dec (V i) (G i) in
  runs_nd (op (A (Grad p)) (A (Tmp k1 p)) (A (Tmp k2 p)) (A (Val p))) s
    (fun s' => exists M', has M' s' /\
      M' (Val p) = Some (fin (fun i => ad_new l b1 b2 eps n (ad_p l wd dec (V i)) (ad_m b1 (m i) (g i)) (ad_v b2 (v i) (g i)))) /\
      M' (Tmp k1 p) = Some (fin (fun i => ad_m b1 (m i) (g i))) /\ M' (Tmp k2 p) = Some (fin (fun i => sqrt (ad_v b2 (v i) (g i)))) /\ ad_keep M M').
Proof.
  intros Hop Hfm Hfv Hfp [[Uv Hg] Hr [Um Sm] [Us Ss] _] HM Ev Eg Hv [Hh1 Hh2] g. destruct (Hg Hr) as [Ug Sg].
  assert (N1 : Grad p <> Tmp k1 p) by discriminate. assert (N2 : Grad p <> Tmp k2 p) by discriminate. assert (N3 : Grad p <> Val p) by discriminate.
  assert (N4 : Tmp k1 p <> Tmp k2 p) by congruence. assert (N5 : Tmp k1 p <> Val p) by discriminate. assert (N6 : Tmp k2 p <> Val p) by discriminate.
  apply runs_runs_nd. eapply runs_weaken.
  { apply (Hop (A (Grad p)) (A (Tmp k1 p)) (A (Tmp k2 p)) (A (Val p)) s); first [apply UW; assumption|assumption|eapply has_st; eassumption|apply UD; assumption]. }
  intros s' Ht [He Hf].
  set (ys := [Tmp k1 p; Tmp k2 p; Val p]).
  set (W := fun x => if gvar_dec x (Val p) then Some (fin (fun i => ad_new l b1 b2 eps n (ad_p l wd dec (V i)) (ad_m b1 (m i) (g i)) (ad_v b2 (v i) (g i))))
    else if gvar_dec x (Tmp k1 p) then Some (fin (fun i => ad_m b1 (m i) (g i))) else Some (fin (fun i => sqrt (ad_v b2 (v i) (g i))))).
  assert (Hval : forall i, inb (t_shape (A (Val p))) i ->
    elem s' (A (Tmp k1 p)) i = Fin (ad_m b1 (m i) (g i)) /\ elem s' (A (Tmp k2 p)) i = Fin (sqrt (ad_v b2 (v i) (g i))) /\
    elem s' (A (Val p)) i = Fin (ad_new l b1 b2 eps n (ad_p l wd dec (V i)) (ad_m b1 (m i) (g i)) (ad_v b2 (v i) (g i)))).
  { intros i Hi. destruct (He i Hi) as (E1 & E2 & E3).
    assert (Ep : elem s (A (Val p)) i = Fin (V i)) by (apply (has_val M s _ _ HM Uv Ev); assumption).
    assert (Egr : elem s (A (Grad p)) i = Fin (G i)) by (apply (has_val M s _ _ HM Ug Eg); destruct Sg as [-> _]; assumption).
    rewrite Ep, Egr in *.
    assert (Egd : (if dec then Fin (G i) else adam_g (Fin wd) (Fin (G i)) (Fin (V i))) = Fin (g i)).
    { unfold g, ad_g. destruct dec; [reflexivity|]. unfold adam_g. rewrite x_eqb0. destruct (Reqb wd 0) eqn:Ew; [apply Reqb_true in Ew; cbn; f_equal; rewrite Ew; ring|reflexivity]. }
    assert (Em : fm (Fin (G i)) (elem s (A (Tmp k1 p)) i) (elem s (A (Tmp k2 p)) i) (Fin (V i)) = Fin (ad_m b1 (m i) (g i))).
    { rewrite Hfm, Egd. apply x_adam_m; [intros C; apply Hh1; assumption|]. intros C. apply (has_val M s _ _ HM Um (proj1 (Hh2 C))). destruct Sm as [-> _]; assumption. }
    assert (Es : fv (Fin (G i)) (elem s (A (Tmp k1 p)) i) (elem s (A (Tmp k2 p)) i) (Fin (V i)) = Fin (sqrt (ad_v b2 (v i) (g i)))).
    { rewrite Hfv, Egd. apply x_adam_v; [apply Hv|intros C; apply Hh1; assumption|]. intros C. apply (has_val M s _ _ HM Us (proj2 (Hh2 C))). destruct Ss as [-> _]; assumption. }
    rewrite E1, E2, E3, Hfp, Em, Es. split; [reflexivity|]. split; [reflexivity|].
    assert (Epp : (if dec then adamw_p (Fin wd) (Fin l) (Fin (V i)) else Fin (V i)) = Fin (ad_p l wd dec (V i))).
    { unfold ad_p. destruct dec; [|reflexivity]. unfold adamw_p. rewrite x_eqb0. destruct (Reqb wd 0) eqn:Ew; [apply Reqb_true in Ew; rewrite Ew|]; cbn; f_equal; ring. }
    rewrite Epp. apply x_adam_p. apply ad_v_pos; [apply Hh|apply Hv]. }
  exists (fun x => if in_dec gvar_dec x ys then W x else M x). split.
  { apply (has_writes M s s' ys W HM); [repeat (apply Forall_cons; [assumption|]); apply Forall_nil|assumption|exact Hf|].
    intros y f Hy Hf'. destruct Hy as [<-|[<-|[<-|[]]]]; unfold W in Hf'.
    - destruct (gvar_dec (Tmp k1 p) (Val p)); [discriminate|]. destruct (gvar_dec (Tmp k1 p) (Tmp k1 p)); [|congruence]. inversion Hf'; subst.
      intros i Hi. apply (Hval i). destruct Sm as [<- _]; assumption.
    - destruct (gvar_dec (Tmp k2 p) (Val p)); [discriminate|]. destruct (gvar_dec (Tmp k2 p) (Tmp k1 p)); [congruence|]. inversion Hf'; subst.
      intros i Hi. apply (Hval i). destruct Ss as [<- _]; assumption.
    - destruct (gvar_dec (Val p) (Val p)); [|congruence]. inversion Hf'; subst. intros i Hi. apply (Hval i Hi). }
  assert (Hin : forall x, In x ys -> (if in_dec gvar_dec x ys then W x else M x) = W x) by (intros x Hx; destruct (in_dec gvar_dec x ys); [reflexivity|contradiction]).
  split; [rewrite Hin by (unfold ys; cbn; tauto); unfold W; destruct (gvar_dec (Val p) (Val p)); [reflexivity|congruence]|].
  split; [rewrite Hin by (unfold ys; cbn; tauto); unfold W; destruct (gvar_dec (Tmp k1 p) (Val p)); [discriminate|]; destruct (gvar_dec (Tmp k1 p) (Tmp k1 p)); [reflexivity|congruence]|].
  split; [rewrite Hin by (unfold ys; cbn; tauto); unfold W; destruct (gvar_dec (Tmp k2 p) (Val p)); [discriminate|]; destruct (gvar_dec (Tmp k2 p) (Tmp k1 p)); [congruence|reflexivity]|].
  intros x X1 X2 X3 X4 X5. destruct (in_dec gvar_dec x ys) as [C|]; [|reflexivity]. destruct C as [<-|[<-|[<-|[]]]]; congruence.
Qed.
End One.

Lemma x_warmup (lr : R) (warm : option (R * Z)) (n : nat) :
  warmup_lr (Fin lr) (match warm with Some (a, k) => Some (Fin a, k) | None => None end) (Z.of_nat n) = Fin (warm_lr lr warm n).
Proof.
  destruct warm as [[a k]|]; [|reflexivity]. unfold warmup_lr, warm_lr. destruct ((Z.of_nat n <? k) && (1 <? k))%Z eqn:E1; [|reflexivity].
  apply Bool.andb_true_iff in E1 as [_ E1]. apply Z.ltb_lt in E1. cbn. destruct (Reqb (IZR (k - 1)) 0) eqn:Eq.
  - apply Reqb_true in Eq. apply eq_IZR in Eq. lia.
  - apply Reqb_false in Eq. cbn. f_equal. field. assumption.
Qed.
End Adam.
