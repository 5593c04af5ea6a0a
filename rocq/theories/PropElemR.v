(** * C13 (add), C14 (scal), C15 (hypot), C29 (Adam) over the real numbers *)
From Coq Require Import Reals Lra.
From Verif Require Import Base Spec Geometry Traits TraitsProofs Runtime Ops TensorSem ElemGeneric OneOut
  KernelsElem ElemOps ElemProofs Formulas Concrete RealOps PropElem PropElem2.
Local Open Scope R_scope.

Lemma binary_ext {T} {O : Ops T} op (f g : T -> T -> T) :
  (forall x d, f x d = g x d) -> binary_elementwise op f -> binary_elementwise op g.
Proof.
  intros E H A B s HA HB. destruct (H A B s HA HB) as [H1 H2]. split; [|assumption].
  intros Ht H3 H4 H5. eapply runs_weaken; [apply H1; assumption|]. intros s' _ (Ha & Hb).
  split; [|assumption]. intros idx Hi. rewrite Ha by assumption. apply E.
Qed.

Lemma binary_op_ext {T} {O : Ops T} op1 op2 (f : T -> T -> T) :
  (forall x d, op1 x d = op2 x d) -> binary_elementwise op1 f -> binary_elementwise op2 f.
Proof. intros E H A B s. rewrite <- E. apply H. Qed.

Ltac reqb := cbn [o_eqb o_zero o_one Rops] in *;
  repeat match goal with
  | |- context [Reqb ?a ?b] => let H := fresh in destruct (Reqb a b) eqn:H;
      [apply Reqb_true in H | apply Reqb_false in H]
  end.

Theorem C14_scal (alpha : R) : binary_elementwise (scal_async alpha) (fun x _ => alpha * x).
Proof.
  eapply binary_ext; [|apply C14_scal_generic]. intros x d. cbv beta. reqb; cbn; subst; lra.
Qed.

(** Early returns with nothing submitted *)
Lemma nop_binary {T} {O : Ops T} op (f : T -> T -> T) :
  (forall A B, op A B = check_loop B A (Ok [])) -> (forall x d, f x d = d) ->
  binary_elementwise op f.
Proof.
  intros Hop Hf A B s HA HB. rewrite Hop. apply wf_wft in HA, HB. split.
  - intros (ES & EB) _ _ _. rewrite check_loop_ok by congruence. apply nop_runs.
    split; [intros; symmetry; apply Hf|intros h _; reflexivity].
  - intros Hn. apply check_loop_bad; auto. unfold same_tiling in Hn.
    destruct (list_eq_dec Z.eq_dec (t_shape A) (t_shape B)); [|auto].
    destruct (list_eq_dec Z.eq_dec (t_base A) (t_base B)); [|auto]. tauto.
Qed.

(** add: dst := alpha*src + beta*dst, except alpha = 0 with beta other than 0 and 1 *)
Theorem C13_add_partial (alpha beta : R) : ~ (alpha = 0 /\ beta <> 0 /\ beta <> 1) ->
  binary_elementwise (fun src dst => add_async alpha src beta dst) (fun x d => alpha * x + beta * d).
Proof.
  intros H. destruct (Req_dec beta 0) as [->|Hb].
  - eapply binary_op_ext; [intros x d; symmetry; apply add_beta0|].
    + apply Reqb_true; reflexivity.
    + apply Reqb_false. cbn. lra.
    + eapply binary_ext; [|apply C14_scal]. intros; cbv beta; lra.
  - destruct (Req_dec alpha 0) as [->|Ha].
    + assert (beta = 1) by (destruct (Req_dec beta 1); [assumption|tauto]). subst beta.
      apply nop_binary; [|intros; lra]. intros A B. unfold add_async.
      replace (o_eqb 0 o_zero) with true by (symmetry; apply Reqb_true; reflexivity).
      replace (o_eqb 1 o_one) with true by (symmetry; apply Reqb_true; reflexivity). reflexivity.
    + exact (C13_add_generic alpha beta (proj2 (Reqb_false _ _) Ha) (proj2 (Reqb_false _ _) Hb)).
Qed.

Lemma Int_part_IZR z : Int_part (IZR z) = z.
Proof.
  destruct (base_Int_part (IZR z)) as [H1 H2]. apply le_IZR in H1.
  assert (H3 : (z - 1 < Int_part (IZR z))%Z) by (apply lt_IZR; rewrite minus_IZR; lra). lia.
Qed.

Lemma Rtrunc_IZR z : Rtrunc (IZR z) = z.
Proof.
  unfold Rtrunc. destruct (Rle_dec 0 (IZR z)); [apply Int_part_IZR|]. rewrite <- opp_IZR, Int_part_IZR. lia.
Qed.

(** an operation that submits a task that cannot run does not run *)
Lemma not_runs {T} (r : res (list (task T))) s P t ts : r = Ok (t :: ts) -> exec_task t s s = UB -> ~ runs r s P.
Proof.
  intros -> E (ts' & [= <-] & _ & _ & Ha). destruct (Ha (t :: ts) s) as [Hs _]; [constructor|].
  destruct (Hs [] t ts s) as (s' & E'); [reflexivity|intros ? []|intros h; reflexivity|].
  cbn [snd] in E'. congruence.
Qed.

(** In the excluded case the multiplier and the number of elements are exchanged: with one-element
    tensors and alpha = 0, beta = 2 the kernel leaves the buffer. *)
Theorem C13_add_refuted : exists (alpha beta : R),
  ~ binary_elementwise (fun src dst => add_async alpha src beta dst) (fun x d => alpha * x + beta * d).
Proof.
  exists 0, 2. intros H.
  pose (A := std_tensor [1%Z] [1%Z] 0%Z). pose (B := std_tensor [1%Z] [1%Z] 10%Z).
  pose (s := put A (fun _ => 5) (put B (fun _ => 3) (fun _ => BF []))).
  assert (HA : wf_tensor A) by std_wf_tac. assert (HB : wf_tensor B) by std_wf_tac.
  destruct (H A B s HA HB) as [H1 _].
  assert (D : disj A B) by (apply std_disj; vm_compute; left; discriminate).
  pose proof (wf_wft _ HA) as HA'. pose proof (wf_wft _ HB) as HB'.
  refine (not_runs _ s _ (add_submit 1%Z 0 0%Z 2 10%Z) [] _ _ (H1 _ _ _ D)).
  - unfold add_async. rewrite check_loop_ok by (auto; reflexivity).
    replace (o_eqb 2 o_one) with false by (symmetry; apply Reqb_false; cbn; lra). rewrite andb_false_r.
    rewrite tiles2_ok by (auto; reflexivity). reflexivity.
  - unfold add_submit.
    replace (o_eqb 2 o_zero) with false by (symmetry; apply Reqb_false; cbn; lra).
    replace (o_eqb 0 o_zero) with true by (symmetry; apply Reqb_true; reflexivity).
    unfold scal_inplace_submit. change (o_toZ 2) with (Rtrunc 2). rewrite Rtrunc_IZR.
    reflexivity.
  - split; reflexivity.
  - apply put_stored; assumption.
  - apply put_stored_other; [assumption| |apply put_stored; assumption].
    intros h Ha Hb. apply (D h); assumption.
Qed.

(** hypot: dst := sqrt((alpha*src)^2 + (beta*dst)^2), except alpha = 0 with beta = 1 *)
Lemma sqrt_sq_abs x : sqrt (x * x) = Rabs x.
Proof. exact (sqrt_Rsqr_abs x). Qed.

Theorem C15_hypot_partial (alpha beta : R) : ~ (alpha = 0 /\ beta = 1) ->
  binary_elementwise (fun src dst => hypot_async alpha src beta dst)
    (fun x d => sqrt ((alpha * x) * (alpha * x) + (beta * d) * (beta * d))).
Proof.
  intros H. eapply binary_ext; [|apply C15_hypot_generic].
  - intros x d. unfold f_hypot. reqb; cbn [o_abs o_hypot o_mul Rops]; subst; try reflexivity.
    + match goal with |- context [sqrt ?a] => replace a with 0 by (cbn; ring) end. rewrite sqrt_0. reflexivity.
    + rewrite <- sqrt_sq_abs. f_equal. cbn; ring.
    + rewrite <- sqrt_sq_abs. f_equal. cbn; ring.
  - intros E. apply Reqb_true in E. apply Reqb_false. cbn in *. lra.
  - destruct (o_eqb alpha o_zero) eqn:E1; [|reflexivity]. apply Reqb_true in E1. cbn [andb].
    apply Reqb_false. intros E2. apply H. split; assumption.
Qed.

Theorem C15_hypot_refuted : exists (alpha beta : R),
  ~ binary_elementwise (fun src dst => hypot_async alpha src beta dst)
    (fun x d => sqrt ((alpha * x) * (alpha * x) + (beta * d) * (beta * d))).
Proof.
  exists 0, 1. intros H.
  pose (A := std_tensor [1%Z] [1%Z] 0%Z). pose (B := std_tensor [1%Z] [1%Z] 10%Z).
  pose (s := put A (fun _ => 5) (put B (fun _ => -3) (fun _ => BF []))).
  assert (HA : wf_tensor A) by std_wf_tac. assert (HB : wf_tensor B) by std_wf_tac.
  destruct (H A B s HA HB) as [H1 _].
  assert (D : disj A B) by (apply std_disj; vm_compute; left; discriminate).
  assert (D' : disj B A) by (intros h Ha Hb; apply (D h); assumption).
  pose proof (wf_wft _ HA) as HA'. pose proof (wf_wft _ HB) as HB'.
  assert (Hr : runs (hypot_async 0 A 1 B) s (fun s' => forall h, s' h = s h)).
  { unfold hypot_async. rewrite check_loop_ok by (auto; reflexivity).
    replace (o_eqb 0 o_zero) with true by (symmetry; apply Reqb_true; reflexivity).
    replace (o_eqb 1 o_one) with true by (symmetry; apply Reqb_true; reflexivity). apply nop_runs. reflexivity. }
  assert (Hr2 := H1 (conj eq_refl eq_refl) (put_stored A _ _ HA')
    (put_stored_other _ KF A B _ HB' D' (put_stored B _ _ HB')) D).
  destruct Hr as (ts & E & _ & _ & Ha). destruct (always_terminates _ _ _ Ha) as (s' & Hs' & _ & Hs).
  destruct Hr2 as (ts2 & E2 & _ & _ & Ha2). assert (ts2 = ts) by congruence. subst ts2.
  destruct (Ha2 _ _ Hs') as [_ HP]. destruct (HP eq_refl) as (_ & Hv & _).
  assert (Hi : inb (t_shape B) [0%Z]) by (repeat constructor; lia).
  specialize (Hv [0%Z] Hi).
  assert (EB : elem s B [0%Z] = -3) by (unfold s, put at 1; rewrite put_elem_other by assumption; rewrite put_elem by assumption; reflexivity).
  assert (EB' : elem s' B [0%Z] = -3) by (rewrite <- EB; unfold elem; rewrite Hs; reflexivity).
  rewrite EB', EB in Hv.
  pose proof (sqrt_pos (0 * elem s A [0%Z] * (0 * elem s A [0%Z]) + 1 * -3 * (1 * -3))). lra.
Qed.

(** *** Adam: the textbook recurrences *)
(** first moment, second moment (squared), update with bias correction *)
Lemma Rcpow_nat b n : Rcpow b (IZR (Z.of_nat n)) = b ^ n.
Proof.
  unfold Rcpow. rewrite Int_part_IZR.
  destruct (Req_EM_T _ _); [|congruence]. symmetry. apply pow_powerRZ.
Qed.

Definition adam_spec (n : nat) (b1 b2 eps lr p g m v m' v' p' : R) : Prop :=
  (* n >= 1 steps so far including this one; v, v' hold square roots of second moments *)
  (if Nat.eqb n 1 then m' = (1 - b1) * g /\ v' * v' = (1 - b2) * (g * g)
   else m' = b1 * m + (1 - b1) * g /\ v' * v' = b2 * (v * v) + (1 - b2) * (g * g)) /\
  0 <= v' /\
  p' = p - lr * (m' / (1 - b1 ^ n)) / (sqrt (v' * v' / (1 - b2 ^ n)) + eps).

Lemma adam_spec_ok n b1 b2 eps lr p g m v : (1 <= n)%nat -> 0 < b2 < 1 ->
  let t := Z.of_nat n in
  let m' := adam_m t b1 m g in let v' := adam_v t b2 v g in
  adam_spec n b1 b2 eps lr p g m v m' v' (adam_p t b1 b2 eps lr p m' v').
Proof.
  intros Hn Hb2 t m' v'.
  assert (Hv0 : 0 <= v').
  { unfold v', adam_v. destruct (Z.eqb t 1); cbn.
    - apply Rmult_le_pos; [apply sqrt_pos|apply Rabs_pos].
    - apply sqrt_pos. }
  assert (Hp2 : b2 ^ n < 1).
  { destruct n as [|n]; [lia|]. pose proof (pow_lt_1_compat b2 (S n) ltac:(lra) ltac:(lia)). lra. }
  split; [|split; [assumption|]].
  - destruct (Nat.eqb_spec n 1) as [->|Hne].
    + unfold m', v', adam_m, adam_v. change (Z.eqb t 1) with true. cbv iota. cbn. split; [reflexivity|].
      replace (sqrt (1 - b2) * Rabs g * (sqrt (1 - b2) * Rabs g)) with ((sqrt (1 - b2) * sqrt (1 - b2)) * (Rabs g * Rabs g)) by ring.
      rewrite sqrt_sqrt by lra. f_equal. rewrite <- Rabs_mult. apply Rabs_pos_eq. apply Rle_0_sqr.
    + unfold m', v', adam_m, adam_v. replace (Z.eqb t 1) with false by (symmetry; apply Z.eqb_neq; unfold t; lia).
      cbn. split; [reflexivity|]. unfold Rhypot.
      replace (sqrt b2 * v * (sqrt b2 * v) + sqrt (1 - b2) * g * (sqrt (1 - b2) * g))
        with ((sqrt b2 * sqrt b2) * (v * v) + (sqrt (1 - b2) * sqrt (1 - b2)) * (g * g)) by ring.
      rewrite !(sqrt_sqrt b2), !(sqrt_sqrt (1 - b2)) by lra.
      apply sqrt_sqrt. pose proof (Rle_0_sqr v). pose proof (Rle_0_sqr g). unfold Rsqr in *.
      apply Rplus_le_le_0_compat; apply Rmult_le_pos; lra.
  - unfold adam_p. cbn. unfold t. rewrite !Rcpow_nat.
    assert (0 < sqrt (1 - b2 ^ n)) by (apply sqrt_lt_R0; lra).
    rewrite sqrt_div_alt by lra. rewrite (sqrt_square v') by assumption.
    f_equal. unfold Rdiv. rewrite Rmult_1_l. ring.
Qed.

(** Adam with L2 weight decay folded in the gradient *)
Theorem C29_adam_real (n : nat) (b1 b2 eps lr wd : R) : (1 <= n)%nat -> 0 < b2 < 1 ->
  forall grad m v p s, wf_tensor grad -> wf_tensor m -> wf_tensor v -> wf_tensor p ->
    same_tiling grad p -> same_tiling m p -> same_tiling v p ->
    stored KF s grad -> stored KF s m -> stored KF s v -> stored KF s p ->
    disj grad m -> disj grad v -> disj grad p -> disj m v -> disj m p -> disj v p ->
    runs (adam_step_async (Z.of_nat n) b1 b2 eps lr wd grad m v p) s (fun s' =>
      (forall idx, inb (t_shape p) idx ->
         adam_spec n b1 b2 eps lr (elem s p idx) (elem s grad idx + wd * elem s p idx)
           (elem s m idx) (elem s v idx) (elem s' m idx) (elem s' v idx) (elem s' p idx)) /\
      frame [m; v; p] s s').
Proof.
  intros Hn Hb2. pose proof (C29_adam_step (Z.of_nat n) b1 b2 eps lr wd) as H.
  intros grad m v p s Hg Hm Hv Hp T1 T2 T3 S1 S2 S3 S4 D1 D2 D3 D4 D5 D6.
  eapply runs_weaken; [apply H; assumption|]. intros s' _ (He & Hf). split; [|assumption].
  intros idx Hi. destruct (He idx Hi) as (-> & -> & ->).
  replace (adam_g wd (elem s grad idx) (elem s p idx)) with (elem s grad idx + wd * elem s p idx).
  - apply adam_spec_ok; assumption.
  - unfold adam_g. reqb; cbn [negb]; cbv iota; cbn; subst; lra.
Qed.

(** AdamW: decoupled weight decay, applied to the parameter first *)
Theorem C29_adamw_real (n : nat) (b1 b2 eps lr wd : R) : (1 <= n)%nat -> 0 < b2 < 1 ->
  forall grad m v p s, wf_tensor grad -> wf_tensor m -> wf_tensor v -> wf_tensor p ->
    same_tiling grad p -> same_tiling m p -> same_tiling v p ->
    stored KF s grad -> stored KF s m -> stored KF s v -> stored KF s p ->
    disj grad m -> disj grad v -> disj grad p -> disj m v -> disj m p -> disj v p ->
    runs (adamw_step_async (Z.of_nat n) b1 b2 eps lr wd grad m v p) s (fun s' =>
      (forall idx, inb (t_shape p) idx ->
         adam_spec n b1 b2 eps lr (elem s p idx - lr * wd * elem s p idx) (elem s grad idx)
           (elem s m idx) (elem s v idx) (elem s' m idx) (elem s' v idx) (elem s' p idx)) /\
      frame [m; v; p] s s').
Proof.
  intros Hn Hb2. pose proof (C29_adamw_step (Z.of_nat n) b1 b2 eps lr wd) as H.
  intros grad m v p s Hg Hm Hv Hp T1 T2 T3 S1 S2 S3 S4 D1 D2 D3 D4 D5 D6.
  eapply runs_weaken; [apply H; assumption|]. intros s' _ (He & Hf). split; [|assumption].
  intros idx Hi. destruct (He idx Hi) as (-> & -> & ->).
  replace (adamw_p wd lr (elem s p idx)) with (elem s p idx - lr * wd * elem s p idx).
  - apply adam_spec_ok; assumption.
  - unfold adamw_p. reqb; cbn [negb]; cbv iota; cbn; subst; lra.
Qed.

(** *** Concrete instances *)
Example C13_ex :
  let A := std_tensor [5; 3]%Z [2; 2]%Z 0%Z in let B := std_tensor [5; 3]%Z [2; 2]%Z 100%Z in
  let s := put A (fun i => IZR (hd 0%Z i)) (put B (fun _ => 1) (fun _ => BF [])) in
  runs (add_async 2 A 3 B) s (fun s' => elem s' B [4; 1]%Z = 11).
Proof.
  intros A B s. assert (HA : wf_tensor A) by std_wf_tac. assert (HB : wf_tensor B) by std_wf_tac.
  pose proof (wf_wft _ HA) as HA'. pose proof (wf_wft _ HB) as HB'.
  assert (D : disj A B) by (apply std_disj; vm_compute; left; discriminate).
  assert (D' : disj B A) by (intros h Ha Hb; apply (D h); assumption).
  destruct (C13_add_partial 2 3 ltac:(lra) A B s HA HB) as [H _].
  assert (Hi : inb (t_shape B) [4; 1]%Z) by (repeat constructor; lia).
  eapply runs_weaken; [apply H|].
  - split; reflexivity.
  - apply put_stored; assumption.
  - apply put_stored_other; [assumption|assumption|apply put_stored; assumption].
  - assumption.
  - intros s' _ (Hv & _). rewrite Hv by assumption. unfold s. rewrite put_elem by assumption.
    unfold put at 1. rewrite put_elem_other by assumption. rewrite put_elem by assumption. cbn [hd]. lra.
Qed.
