(** * Training: minibatches and SGD (pipeline.py, optimizer/sgd.py)

    Model (first section) and proofs.  The loop over epochs and batches (pipeline.py:44-49) repeats
    [train_batch]; wont_use hints and reading the loss value back are left out. *)
From Coq Require Import Reals Lra FunctionalExtensionality.
From Coquelicot Require Import Coquelicot.
From Verif Require Import Base Spec Geometry Traits TraitsProofs Runtime Ops RealOps TensorSem OneOut ElemOps Formulas PropDeriv Axis Sequence XReals NdRuns AnyRuns RSum MatOps PropElem PropElemR XTriples HasRuns TapeMath VjpMath Tape PyLayers PyLinear PySimple PyNorm Backprop Frob PropLayers PropModel.
Local Close Scope Z_scope.
Local Open Scope R_scope.

Section Prog.
Context {T : Type} {O : Ops T}.
(** sgd.py:53-69, for one parameter; momentum, weight_decay, damping as the attributes of the
    optimizer, [state] is self.states[i] (used only if momentum > 0) *)
Definition sgd_one (lr momentum wd damping : T) (nesterov : bool) (num_iter : Z) (p : moments) (state : tensor) : res (list (task T)) :=
  pyseq [py_if (negb (o_eqb wd o_zero)) (axpy_async wd (m_val p) (m_grad p));
         py_if (o_ltb o_zero momentum) (pyseq [
           if (num_iter =? 0)%Z then copy_async (m_grad p) state
           else pyseq [scal_inplace_async momentum state; axpy_async (o_sub o_one damping) (m_grad p) state];
           if nesterov then axpy_async momentum state (m_grad p) else copy_async state (m_grad p)]);
         axpy_async (o_neg lr) (m_grad p) (m_val p)].
(** sgd.py:53-69, all parameters *)
Definition sgd_step (lr momentum wd damping : T) (nesterov : bool) (num_iter : Z) (ps : list (moments * tensor)) : res (list (task T)) :=
  pyseq (map (fun q => sgd_one lr momentum wd damping nesterov num_iter (fst q) (snd q)) ps).
(** pipeline.py:54-68: one minibatch; [x0] is activations[0].value, [ly] is loss.y *)
Definition minibatch (acts : list moments) (x0 ly : tensor) (layers : list (pylayer T)) (loss : res (list (task T))) (mb : tensor * tensor) : res (list (task T)) :=
  pyseq [clear_grads acts; copy_async (fst mb) x0; model_forward layers; copy_async (snd mb) ly; loss; model_backward layers].
(** pipeline.py:50-71: one batch, with [opt] the tasks of self.opt.step() *)
Definition train_batch (params acts : list moments) (lval x0 ly : tensor) (layers : list (pylayer T)) (loss : res (list (task T)))
    (mbs : list (tensor * tensor)) (opt : res (list (task T))) : res (list (task T)) :=
  pyseq ([clear_grads params; clear_async lval] ++ map (minibatch acts x0 ly layers loss) mbs ++ [opt]).
End Prog.

Section Sgd.
Context {E : env} (req : nat -> bool).

(** ** Specification of SGD (as in PyTorch): gradient with weight decay, momentum buffer,
    direction, new value *)
Section Spec.
Variables (lr mom wd damp : R) (nest : bool) (it : Z).
Definition sgd_g (v g : R) : R := g + wd * v.
Definition sgd_buf (v g m : R) : R := if (it =? 0)%Z then sgd_g v g else mom * m + (1 - damp) * sgd_g v g.
Definition sgd_dir (v g m : R) : R :=
  if Rltb 0 mom then (if nest then sgd_g v g + mom * sgd_buf v g m else sgd_buf v g m) else sgd_g v g.
Definition sgd_new (v g m : R) : R := v - lr * sgd_dir v g m.
End Spec.

Record param_ok (sid p : nat) (mom : R) : Prop := {
  pa_node : node_ok req p; pa_req : req p = true;
  pa_state : 0 < mom -> U (Tmp sid p) /\ same_tiling (A (Tmp sid p)) (A (Val p))
}.

(** What the step leaves behind for parameter [p]. *)
Definition sgd_map (lr mom wd damp : R) (nest : bool) (it : Z) (sid : nat) (V G B : nat -> arr) (p : nat) (M : smap) : smap := fun x =>
  if gvar_dec x (Val p) then Some (fin (fun i => sgd_new lr mom wd damp nest it (V p i) (G p i) (B p i)))
  else if gvar_dec x (Grad p) then Some (fin (fun i => sgd_dir mom wd damp nest it (V p i) (G p i) (B p i)))
  else if gvar_dec x (Tmp sid p) then (if Rltb 0 mom then Some (fin (fun i => sgd_buf mom wd damp it (V p i) (G p i) (B p i))) else M x)
  else M x.

Lemma sgd_one_has lr mom wd damp nest it sid V G B p M s : param_ok sid p mom -> has M s ->
  M (Val p) = Some (fin (V p)) -> M (Grad p) = Some (fin (G p)) -> (0 < mom -> it <> 0%Z -> M (Tmp sid p) = Some (fin (B p))) ->
  runs_nd (sgd_one (Fin lr) (Fin mom) (Fin wd) (Fin damp) nest it (node req p) (A (Tmp sid p))) s
    (has (sgd_map lr mom wd damp nest it sid V G B p M)).
Proof.
  intros [[Uv Hg] Hr HS] HM Ev Eg Em. destruct (Hg Hr) as [Ug Sg]. unfold sgd_one. cbn [m_val m_grad node].
  set (g1 := fun i => sgd_g wd (V p i) (G p i)).
  assert (Ne : Val p <> Grad p) by discriminate.
  eapply (py_cons _ _ _ (has (upd (Grad p) (Some (fin g1)) M))).
  { change (o_eqb (Fin wd) o_zero) with (Reqb wd 0). destruct (Reqb wd 0) eqn:Ew; cbn [negb py_if].
    - apply Reqb_true in Ew. apply nd_nop. eapply has_sub; [exact HM|]. intros x f _. unfold upd. destruct (gvar_dec x (Grad p)) as [->|]; [|auto].
      intros Hf. rewrite Eg, <- Hf. f_equal. f_equal. apply functional_extensionality. intros i. unfold g1, sgd_g. rewrite Ew. ring.
    - apply (h_axpy wd M s (Val p) (Grad p) (V p) (G p) g1 HM); try assumption; [apply same_sym; assumption|]. intros i _. unfold g1, sgd_g. ring. }
  intros s1 H1.
  set (M1 := fun x => if gvar_dec x (Grad p) then Some (fin (fun i => sgd_dir mom wd damp nest it (V p i) (G p i) (B p i)))
    else if gvar_dec x (Tmp sid p) then (if Rltb 0 mom then Some (fin (fun i => sgd_buf mom wd damp it (V p i) (G p i) (B p i))) else M x) else M x).
  eapply (py_cons _ _ _ (has M1)).
  { change (o_ltb o_zero (Fin mom)) with (Rltb 0 mom). destruct (Rltb 0 mom) eqn:Emo; cbn [py_if].
    - apply Rltb_true in Emo. destruct (HS Emo) as [Ut St].
      set (bf := fun i => sgd_buf mom wd damp it (V p i) (G p i) (B p i)).
      assert (Sgt : same_tiling (A (Grad p)) (A (Tmp sid p))) by (apply (same_trans _ (A (Val p))); [assumption|apply same_sym; assumption]).
      assert (N1 : Grad p <> Tmp sid p) by discriminate. assert (N2 : Tmp sid p <> Grad p) by discriminate.
      eapply (py_cons _ _ _ (has (upd (Tmp sid p) (Some (fin bf)) (upd (Grad p) (Some (fin g1)) M)))).
      { destruct (it =? 0)%Z eqn:Ei.
        - apply (h_copy _ s1 (Grad p) (Tmp sid p) g1 bf H1); try assumption; [apply upd_eq|]. intros i _. unfold g1, bf, sgd_buf. rewrite Ei. reflexivity.
        - assert (Hit : it <> 0%Z) by (apply Z.eqb_neq; assumption).
          eapply py_cons; [apply (h_scal_inplace mom _ s1 (Tmp sid p) (B p) (fun i => mom * B p i) H1); try assumption|].
          { rewrite upd_ne by discriminate. apply Em; assumption. } { reflexivity. }
          intros s2 H2. rewrite pyseq_1. eapply nd_weaken.
          { apply (h_axpy (1 - damp) _ s2 (Grad p) (Tmp sid p) g1 (fun i => mom * B p i) bf H2); try assumption.
            - rewrite upd_ne by discriminate. apply upd_eq.
            - apply upd_eq.
            - intros i _. unfold bf, sgd_buf, g1. rewrite Ei. ring. }
          intros s3 _ H3. eapply has_sub; [exact H3|]. intros x f _. unfold upd. destruct (gvar_dec x (Tmp sid p)); auto. }
      intros s2 H2. rewrite pyseq_1.
      apply (nd_weaken _ s2 (has (upd (Grad p) (Some (fin (if nest then fun i => g1 i + mom * bf i else bf))) (upd (Tmp sid p) (Some (fin bf)) (upd (Grad p) (Some (fin g1)) M))))).
      { destruct nest.
        - apply (h_axpy mom _ s2 (Tmp sid p) (Grad p) bf g1 (fun i => g1 i + mom * bf i) H2); try assumption; [apply same_sym; assumption|apply upd_eq|rewrite upd_ne by discriminate; apply upd_eq|].
          intros i _. ring.
        - apply (h_copy _ s2 (Tmp sid p) (Grad p) bf bf H2); try assumption; [apply same_sym; assumption|apply upd_eq|]. reflexivity. }
      cbv beta. intros s3 _ H3. eapply has_sub; [exact H3|]. intros x f _. unfold M1. unfold upd. destruct (gvar_dec x (Grad p)).
      + intros Hf. rewrite <- Hf. f_equal. f_equal. apply functional_extensionality. intros i. unfold sgd_dir.
        destruct (Rltb 0 mom) eqn:Em'; [|apply Rltb_false in Em'; lra]. destruct nest; reflexivity.
      + destruct (gvar_dec x (Tmp sid p)); auto.
    - apply nd_nop. eapply has_sub; [exact H1|]. intros x f _. unfold M1. unfold upd. destruct (gvar_dec x (Grad p)).
      + intros Hf. rewrite <- Hf. f_equal. f_equal. apply functional_extensionality. intros i. unfold sgd_dir. rewrite Emo. reflexivity.
      + destruct (gvar_dec x (Tmp sid p)); auto. }
  intros s2 H2. rewrite pyseq_1. eapply nd_weaken.
  { change (o_neg (Fin lr)) with (Fin (- lr)).
    apply (h_axpy (- lr) _ s2 (Grad p) (Val p) (fun i => sgd_dir mom wd damp nest it (V p i) (G p i) (B p i)) (V p)
      (fun i => sgd_new lr mom wd damp nest it (V p i) (G p i) (B p i)) H2); try assumption; try discriminate.
    - unfold M1. destruct (gvar_dec (Grad p) (Grad p)); [reflexivity|congruence].
    - intros i _. unfold sgd_new. ring. }
  intros s3 _ H3. eapply has_sub; [exact H3|]. intros x f _. unfold sgd_map, M1, upd.
  destruct (gvar_dec x (Val p)) as [->|]; auto.
Qed.

Section Step.
Variables (lr mom wd damp : R) (nest : bool) (it : Z) (sid : nat) (V G B : nat -> arr).
Definition sgd_all (ps : list nat) (M : smap) : smap := fun x =>
  match x with
  | Val n => if in_dec Nat.eq_dec n ps then Some (fin (fun i => sgd_new lr mom wd damp nest it (V n i) (G n i) (B n i))) else M x
  | Grad n => if in_dec Nat.eq_dec n ps then Some (fin (fun i => sgd_dir mom wd damp nest it (V n i) (G n i) (B n i))) else M x
  | Tmp k n => if Nat.eq_dec k sid then if in_dec Nat.eq_dec n ps then
        (if Rltb 0 mom then Some (fin (fun i => sgd_buf mom wd damp it (V n i) (G n i) (B n i))) else M x) else M x else M x
  end.
Lemma sgd_step_has ps : forall M s, Forall (fun p => param_ok sid p mom) ps -> NoDup ps -> has M s ->
  (forall p, In p ps -> M (Val p) = Some (fin (V p)) /\ M (Grad p) = Some (fin (G p)) /\ (0 < mom -> it <> 0%Z -> M (Tmp sid p) = Some (fin (B p)))) ->
  runs_nd (sgd_step (Fin lr) (Fin mom) (Fin wd) (Fin damp) nest it (map (fun p => (node req p, A (Tmp sid p))) ps)) s (has (sgd_all ps M)).
Proof.
  unfold sgd_step. induction ps as [|p ps IH]; intros M s Hp Hn HM Hv.
  - apply py_nil. eapply has_sub; [exact HM|]. intros [n|n|k n] f _; cbn [sgd_all]; destruct (in_dec Nat.eq_dec n []) as [[]|_]; try (destruct (Nat.eq_dec k sid)); auto.
  - inversion Hp as [|? ? Hp1 Hp2]; subst. inversion Hn as [|? ? Hn1 Hn2]; subst. cbn [map fst snd].
    destruct (Hv p (or_introl eq_refl)) as (E1 & E2 & E3).
    eapply py_cons; [apply (sgd_one_has lr mom wd damp nest it sid V G B p M s Hp1 HM E1 E2 E3)|].
    intros s1 H1. eapply nd_weaken; [apply (IH _ s1 Hp2 Hn2 H1)|].
    + intros q Hq. assert (Hqp : q <> p) by (intros ->; contradiction). destruct (Hv q (or_intror Hq)) as (F1 & F2 & F3).
      unfold sgd_map. repeat split; [| |intros Q1 Q2; specialize (F3 Q1 Q2)];
        repeat match goal with |- context [gvar_dec ?a ?b] => destruct (gvar_dec a b) as [Eq|_]; [inversion Eq; congruence|] end; assumption.
    + intros s2 _ H2. eapply has_sub; [exact H2|]. intros x f _ Hf.
      assert (Hin : forall n, (if in_dec Nat.eq_dec n (p :: ps) then True else False) -> n = p \/ In n ps).
      { intros n. destruct (in_dec Nat.eq_dec n (p :: ps)) as [[->|]|]; tauto. }
      destruct x as [n|n|k n]; cbn [sgd_all] in *; unfold sgd_map.
      * destruct (in_dec Nat.eq_dec n ps) as [I1|I1]; [destruct (in_dec Nat.eq_dec n (p :: ps)) as [_|C]; [exact Hf|exfalso; apply C; right; assumption]|].
        destruct (gvar_dec (Val n) (Val p)) as [Eq|Nq].
        -- inversion Eq; subst. destruct (in_dec Nat.eq_dec p (p :: ps)) as [_|C]; [exact Hf|exfalso; apply C; left; reflexivity].
        -- destruct (in_dec Nat.eq_dec n (p :: ps)) as [[C|C]|_]; [subst; congruence|contradiction|].
           destruct (gvar_dec (Val n) (Grad p)); [discriminate|]. destruct (gvar_dec (Val n) (Tmp sid p)); [discriminate|]. exact Hf.
      * destruct (in_dec Nat.eq_dec n ps) as [I1|I1]; [destruct (in_dec Nat.eq_dec n (p :: ps)) as [_|C]; [exact Hf|exfalso; apply C; right; assumption]|].
        destruct (gvar_dec (Grad n) (Val p)); [discriminate|]. destruct (gvar_dec (Grad n) (Grad p)) as [Eq|Nq].
        -- inversion Eq; subst. destruct (in_dec Nat.eq_dec p (p :: ps)) as [_|C]; [exact Hf|exfalso; apply C; left; reflexivity].
        -- destruct (in_dec Nat.eq_dec n (p :: ps)) as [[C|C]|_]; [subst; congruence|contradiction|].
           destruct (gvar_dec (Grad n) (Tmp sid p)); [discriminate|]. exact Hf.
      * assert (Hskip : forall (q : Prop) (d : {q} + {~ q}), True) by trivial. clear Hskip.
        destruct (gvar_dec (Tmp k n) (Val p)); [discriminate|]. destruct (gvar_dec (Tmp k n) (Grad p)); [discriminate|].
        destruct (Nat.eq_dec k sid) as [->|Hk].
        -- destruct (gvar_dec (Tmp sid n) (Tmp sid p)) as [Eq|Nq].
           ++ inversion Eq; subst. destruct (in_dec Nat.eq_dec p ps) as [C|_]; [contradiction|].
              destruct (in_dec Nat.eq_dec p (p :: ps)) as [_|C]; [exact Hf|exfalso; apply C; left; reflexivity].
           ++ destruct (in_dec Nat.eq_dec n (p :: ps)) as [[C|C]|C]; [subst; congruence| |];
              destruct (in_dec Nat.eq_dec n ps) as [I1|I1]; try contradiction; try exact Hf. exfalso. apply C. right. assumption.
        -- destruct (gvar_dec (Tmp k n) (Tmp sid p)) as [Eq|Nq]; [inversion Eq; congruence|]. exact Hf.
Qed.
End Step.
End Sgd.
