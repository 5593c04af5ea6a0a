(** * Running a model forwards and backwards

    Layers as state transformers: the forward pass of a layer stores its output, the backward
    pass adds to the gradients of its inputs.  A model whose layers do this computes, in its
    forward pass, the values of all nodes, and in its backward pass the gradients defined by
    [back] (TapeMath). *)
From Coq Require Import Reals Lra FunctionalExtensionality.
From Verif Require Import Base Spec Geometry Traits Runtime Ops TensorSem OneOut ElemOps XReals Sequence NdRuns AnyRuns XTriples HasRuns TapeMath PyLayers.
Local Open Scope R_scope.
Local Close Scope Z_scope.
Local Open Scope R_scope.

(** ** Sequences of statements *)
Section Seq.
Context {T : Type}.
Implicit Types (r : res (list (task T))) (l : list (res (list (task T)))).
Lemma then_nop_r r : then_ r (Ok []) = r.
Proof. unfold then_. destruct r; cbn; [rewrite app_nil_r|..]; reflexivity. Qed.
Lemma then_assoc r1 r2 r3 : then_ (then_ r1 r2) r3 = then_ r1 (then_ r2 r3).
Proof. unfold then_. destruct r1, r2, r3; cbn; rewrite ?app_assoc; reflexivity. Qed.
Lemma pyseq_app l1 l2 : pyseq (l1 ++ l2) = then_ (pyseq l1) (pyseq l2).
Proof.
  induction l1 as [|r l1 IH]; cbn [app pyseq fold_right].
  - fold (pyseq l2). destruct (pyseq l2); reflexivity.
  - fold (pyseq (l1 ++ l2)) (pyseq l1). rewrite IH, then_assoc. reflexivity.
Qed.
Lemma pyseq_1 r : pyseq [r] = r.
Proof. apply then_nop_r. Qed.
Lemma pyseq_cons r l : pyseq (r :: l) = then_ r (pyseq l).
Proof. reflexivity. Qed.
(** one statement at a time *)
Lemma py_cons r l s P Q : runs_nd r s P -> (forall s1, P s1 -> runs_nd (pyseq l) s1 Q) -> runs_nd (pyseq (r :: l)) s Q.
Proof. intros H1 H2. eapply nd_then; [exact H1|]. intros s1 _. apply H2. Qed.
Lemma py_nil s (P : store T -> Prop) : P s -> runs_nd (pyseq []) s P.
Proof. apply nd_nop. Qed.
End Seq.

Section Tape.
Context {E : env} (req : nat -> bool).
Implicit Types (M : smap) (s : store XR) (G e vs : nat -> arr).

(** The TensorMoments object of node [n]. *)
Definition node (n : nat) : moments := {| m_val := A (Val n); m_grad := A (Grad n); m_req := req n |}.

(** Values and temporaries as in [M], all required gradients as in [G]. *)
Definition ov G M : smap := fun x => match x with Grad n => if req n then Some (fin (G n)) else None | _ => M x end.
Definition st M G s : Prop := has (ov G M) s.

Definition inputs (l : mlayer) vs M : Prop := forall j, (j < arity l)%nat -> M (Val (inp l j)) = Some (fin (vs j)).

(** A layer of a model: its function, the number naming its temporaries, its two methods, and
    what it keeps in its temporaries for the backward pass. *)
Record layer := {
  ly_m : mlayer;
  ly_id : nat;
  ly_py : pylayer XR;
  ly_saved : (nat -> arr) -> smap -> Prop
}.
Definition saved_local (l : layer) : Prop := forall vs M M',
  (forall i, M' (Tmp (ly_id l) i) = M (Tmp (ly_id l) i)) -> ly_saved l vs M -> ly_saved l vs M'.
Definition fwd_ok (l : layer) : Prop := forall vs M G s, st M G s -> ml_D (ly_m l) vs -> inputs (ly_m l) vs M ->
  runs_nd (pl_forward (ly_py l)) s (fun s' => exists M', st M' G s' /\
    M' (Val (ml_out (ly_m l))) = Some (fin (ml_F (ly_m l) vs)) /\ ly_saved l vs M' /\
    (forall n, n <> ml_out (ly_m l) -> M' (Val n) = M (Val n)) /\
    (forall k i, k <> ly_id l -> M' (Tmp k i) = M (Tmp k i))).
Definition bwd_ok (l : layer) : Prop := forall vs M G s, st M G s -> ml_D (ly_m l) vs -> inputs (ly_m l) vs M -> ly_saved l vs M ->
  runs_nd (pl_backward (ly_py l)) s (fun s' => exists M' G', st M' G' s' /\
    (forall n idx, n <> ml_out (ly_m l) -> G' n idx = acc (ly_m l) vs G n idx) /\
    (forall n, M' (Val n) = M (Val n)) /\
    (forall k i, k <> ly_id l -> M' (Tmp k i) = M (Tmp k i))).
Definition layer_ok (l : layer) : Prop := saved_local l /\ fwd_ok l /\ bwd_ok l.

(** ** Changing assertions *)
Lemma st_ext M G M' G' s : st M G s -> (forall n, M' (Val n) = M (Val n)) -> (forall k i, M' (Tmp k i) = M (Tmp k i)) ->
  (forall n idx, G' n idx = G n idx) -> st M' G' s.
Proof.
  intros H H1 H2 H3. eapply has_sub; [exact H|]. intros [n|n|k i] f Hx; cbn [ov].
  - rewrite <- H1. auto.
  - intros Hf. rewrite <- Hf. replace (G' n) with (G n); [reflexivity|]. apply functional_extensionality. intros. symmetry. apply H3.
  - rewrite <- H2. auto.
Qed.
Lemma st_val M G s n v : has (upd (Val n) v (ov G M)) s -> st (upd (Val n) v M) G s.
Proof.
  intros H. eapply has_sub; [exact H|]. intros x f _. destruct x as [m|m|k i]; cbn [ov].
  - unfold upd. destruct (gvar_dec (Val m) (Val n)); auto.
  - rewrite upd_ne by discriminate. auto.
  - rewrite !upd_ne by discriminate. auto.
Qed.
Lemma st_tmp M G s k0 i0 v : has (upd (Tmp k0 i0) v (ov G M)) s -> st (upd (Tmp k0 i0) v M) G s.
Proof.
  intros H. eapply has_sub; [exact H|]. intros x f _. destruct x as [m|m|k i]; cbn [ov].
  - rewrite !upd_ne by discriminate. auto.
  - rewrite upd_ne by discriminate. auto.
  - unfold upd. destruct (gvar_dec (Tmp k i) (Tmp k0 i0)); auto.
Qed.

(** Adding [d] to the gradient of node [x]. *)
Definition addg (x : nat) (d : arr) G : nat -> arr := fun n idx => G n idx + (if Nat.eq_dec x n then d idx else 0).
Lemma st_grad M G s x d : (req x = true -> has (upd (Grad x) (Some (fin (fun idx => G x idx + d idx))) (ov G M)) s) ->
  (req x = false -> st M G s) -> st M (addg x d G) s.
Proof.
  intros H1 H2. destruct (req x) eqn:Er.
  - eapply has_sub; [exact (H1 eq_refl)|]. intros y f _. destruct y as [m|m|k i]; cbn [ov].
    + rewrite upd_ne by discriminate. auto.
    + intros Hf. destruct (Nat.eq_dec m x) as [->|Hn].
      * rewrite upd_eq. rewrite Er in Hf. rewrite <- Hf. f_equal. f_equal. apply functional_extensionality. intros idx. unfold addg.
        destruct (Nat.eq_dec x x); [reflexivity|congruence].
      * rewrite upd_ne by congruence. rewrite <- Hf. cbn [ov]. destruct (req m); [|reflexivity]. f_equal. f_equal.
        apply functional_extensionality. intros idx. unfold addg. destruct (Nat.eq_dec x m); [congruence|]. symmetry; apply Rplus_0_r.
    + rewrite upd_ne by discriminate. auto.
  - eapply has_sub; [exact (H2 eq_refl)|]. intros y f _. destruct y as [m|m|k i]; cbn [ov]; auto.
    intros Hf. rewrite <- Hf. destruct (req m) eqn:Em; [|reflexivity]. f_equal. f_equal.
    apply functional_extensionality. intros idx. unfold addg. destruct (Nat.eq_dec x m); [congruence|]. symmetry; apply Rplus_0_r.
Qed.
(** "if x.grad_required: op" where op adds [d] to the gradient of [x] *)
Lemma nd_grad M G s x d op : st M G s ->
  (req x = true -> runs_nd op s (has (upd (Grad x) (Some (fin (fun idx => G x idx + d idx))) (ov G M)))) ->
  runs_nd (py_if (req x) op) s (st M (addg x d G)).
Proof.
  intros H H1. unfold py_if. destruct (req x) eqn:Er.
  - eapply nd_weaken; [exact (H1 eq_refl)|]. intros s' _ Hs. apply st_grad; [auto|congruence].
  - apply nd_nop. apply st_grad; [congruence|auto].
Qed.
Lemma nd_grad_always M G s x d op : req x = true ->
  runs_nd op s (has (upd (Grad x) (Some (fin (fun idx => G x idx + d idx))) (ov G M))) ->
  runs_nd op s (st M (addg x d G)).
Proof. intros Er H1. eapply nd_weaken; [exact H1|]. intros s' _ Hs. apply st_grad; [auto|congruence]. Qed.
Lemma ov_grad M G x : req x = true -> ov G M (Grad x) = Some (fin (G x)).
Proof. intros H. cbn. rewrite H. reflexivity. Qed.

(** Statements that write a value, a temporary, a gradient. *)
Lemma py_val M G r l s n v Q : runs_nd r s (has (upd (Val n) v (ov G M))) ->
  (forall s1, st (upd (Val n) v M) G s1 -> runs_nd (pyseq l) s1 Q) -> runs_nd (pyseq (r :: l)) s Q.
Proof. intros H1 H2. eapply py_cons; [exact H1|]. intros s1 Hs. apply H2, st_val, Hs. Qed.
Lemma py_tmp M G r l s k i v Q : runs_nd r s (has (upd (Tmp k i) v (ov G M))) ->
  (forall s1, st (upd (Tmp k i) v M) G s1 -> runs_nd (pyseq l) s1 Q) -> runs_nd (pyseq (r :: l)) s Q.
Proof. intros H1 H2. eapply py_cons; [exact H1|]. intros s1 Hs. apply H2, st_tmp, Hs. Qed.
Lemma py_grad M G s x d op l Q : st M G s ->
  (req x = true -> runs_nd op s (has (upd (Grad x) (Some (fin (fun idx => G x idx + d idx))) (ov G M)))) ->
  (forall s1, st M (addg x d G) s1 -> runs_nd (pyseq l) s1 Q) -> runs_nd (pyseq (py_if (req x) op :: l)) s Q.
Proof. intros H H1 H2. eapply py_cons; [exact (nd_grad M G s x d op H H1)|]. exact H2. Qed.
Lemma py_grad_always M G s x d op l Q : req x = true ->
  runs_nd op s (has (upd (Grad x) (Some (fin (fun idx => G x idx + d idx))) (ov G M))) ->
  (forall s1, st M (addg x d G) s1 -> runs_nd (pyseq l) s1 Q) -> runs_nd (pyseq (op :: l)) s Q.
Proof. intros H H1 H2. eapply py_cons; [exact (nd_grad_always M G s x d op H H1)|]. exact H2. Qed.
Lemma py_skip l s Q : runs_nd (pyseq l) s Q -> runs_nd (pyseq (Ok [] :: l)) s Q.
Proof. intros H. rewrite pyseq_cons. unfold then_. cbn. destruct H as (ts & E1 & H). rewrite E1. cbn. exists ts. split; [reflexivity|exact H]. Qed.

(** ** The forward pass *)
Fixpoint ordered (ls : list mlayer) (ns : list nat) : Prop :=
  match ls with
  | [] => True
  | l :: ls => (forall j, (j < arity l)%nat -> In (inp l j) ns) /\ ~ In (ml_out l) ns /\ ordered ls (ml_out l :: ns)
  end.
Lemma ordered_fresh ls ns n : ordered ls ns -> In n ns -> ~ In n (outs ls).
Proof.
  revert ns. induction ls as [|l ls IH]; intros ns H Hn; [auto|]. destruct H as (H1 & H2 & H3). intros [C|C].
  - subst. contradiction.
  - apply (IH (ml_out l :: ns) H3); [right; assumption|assumption].
Qed.
Lemma ordered_ssa ls ns : ordered ls ns -> ssa ls.
Proof.
  revert ns. induction ls as [|l ls IH]; intros ns H; [exact I|]. destruct H as (H1 & H2 & H3). split; [|split].
  - intros C. apply H2. apply (In_nth _ _ 0%nat) in C as (j & Hj & <-). apply H1. assumption.
  - apply Forall_forall. intros l' Hl'. assert (Ho : In (ml_out l') (outs ls)) by (apply in_map; assumption). split.
    + intros C. rewrite C in Ho. apply (ordered_fresh ls (ml_out l :: ns) (ml_out l)); [assumption|left; reflexivity|assumption].
    + intros C. apply (In_nth _ _ 0%nat) in C as (j & Hj & C). apply (ordered_fresh ls (ml_out l :: ns) (ml_out l') H3); [|assumption].
      right. rewrite <- C. apply H1. assumption.
  - apply (IH (ml_out l :: ns)). assumption.
Qed.

Notation lms ls := (map ly_m ls).
Notation ids ls := (map ly_id ls).
(** What the backward pass needs: the inputs and temporaries of each layer. *)
Fixpoint chain (ls : list layer) e M : Prop :=
  match ls with
  | [] => True
  | l :: ls => inputs (ly_m l) (args (ly_m l) e) M /\ ly_saved l (args (ly_m l) e) M /\ chain ls (fire (ly_m l) e) M
  end.
Definition knows e M (ns : list nat) : Prop := forall n, In n ns -> M (Val n) = Some (fin (e n)).

Lemma eval_leaf ls e n : ~ In n (outs ls) -> eval ls e n = e n.
Proof.
  revert e. induction ls as [|l ls IH]; intros e Hn; [reflexivity|]. cbn [eval]. rewrite IH by (intros C; apply Hn; right; assumption).
  unfold fire. destruct (Nat.eq_dec n (ml_out l)) as [->|]; [|reflexivity]. exfalso. apply Hn. left. reflexivity.
Qed.

Theorem forward_tape ls : Forall layer_ok ls -> NoDup (ids ls) ->
  forall e ns M G s, ordered (lms ls) ns -> dom (lms ls) e -> st M G s -> knows e M ns ->
  runs_nd (model_forward (map ly_py ls)) s (fun s' => exists M', st M' G s' /\
    knows (eval (lms ls) e) M' (outs (lms ls) ++ ns) /\ chain ls e M' /\
    (forall n, ~ In n (outs (lms ls)) -> M' (Val n) = M (Val n)) /\
    (forall k i, ~ In k (ids ls) -> M' (Tmp k i) = M (Tmp k i))).
Proof.
  induction ls as [|l ls IH]; intros HO ND e ns M G s Ho HD Hs Hk.
  - apply nd_nop. exists M. split; [assumption|]. split; [exact Hk|]. split; [exact I|]. split; reflexivity.
  - inversion HO as [|? ? (L1 & L2 & L3) HO']; subst. inversion ND as [|? ? ND1 ND2]; subst. destruct Ho as (O1 & O2 & O3). destruct HD as [D1 D2].
    assert (Hin : inputs (ly_m l) (args (ly_m l) e) M) by (intros j Hj; apply Hk; apply O1; assumption).
    unfold model_forward. cbn [map]. rewrite pyseq_cons.
    eapply nd_then; [exact (L2 _ M G s Hs D1 Hin)|]. intros s1 _ (M1 & S1 & V1 & Sv & K1 & T1).
    eapply nd_weaken; [apply (IH HO' ND2 (fire (ly_m l) e) (ml_out (ly_m l) :: ns) M1 G s1 O3 D2 S1)|].
    + intros n [<-|Hn].
      * rewrite V1. unfold fire. destruct (Nat.eq_dec _ _); [reflexivity|congruence].
      * assert (n <> ml_out (ly_m l)) by congruence. rewrite K1, Hk by assumption. unfold fire. destruct (Nat.eq_dec n _); [congruence|reflexivity].
    + intros s' _ (M' & S' & Kn & Ch & Kv & Kt). exists M'. split; [assumption|]. split; [|split; [split; [|split; [|exact Ch]]|split]].
      * intros n Hn. cbn [eval map]. apply Kn. rewrite in_app_iff in *. cbn [outs map In] in *. tauto.
      * intros j Hj. rewrite Kv, K1 by (first [apply (ordered_fresh _ _ _ O3); right; auto|intros C; apply O2; rewrite <- C; auto]). auto.
      * eapply L1; [|exact Sv]. intros i. apply Kt. assumption.
      * intros n Hn. cbn [outs map In] in Hn. rewrite Kv, K1 by tauto || (intros C; apply Hn; left; congruence). reflexivity.
      * intros k i Hk'. cbn [map In] in Hk'. rewrite Kt, T1 by tauto || (intros C; apply Hk'; left; congruence). reflexivity.
Qed.

(** ** The backward pass *)
Lemma chain_keep ls e M M' : Forall layer_ok ls -> (forall n, M' (Val n) = M (Val n)) -> (forall k i, In k (ids ls) -> M' (Tmp k i) = M (Tmp k i)) ->
  chain ls e M -> chain ls e M'.
Proof.
  revert e. induction ls as [|l ls IH]; intros e HO H1 H2 H; [exact I|]. inversion HO as [|? ? (L1 & _) HO']; subst.
  destruct H as (C1 & C2 & C3). split; [|split].
  - intros j Hj. rewrite H1. apply C1. assumption.
  - eapply L1; [|exact C2]. intros i. apply H2. left. reflexivity.
  - apply IH; auto. intros k i Hk. apply H2. right. assumption.
Qed.
Theorem backward_tape ls : Forall layer_ok ls -> NoDup (ids ls) -> NoDup (outs (lms ls)) ->
  forall e M G s, dom (lms ls) e -> st M G s -> chain ls e M ->
  runs_nd (model_backward (map ly_py ls)) s (fun s' => exists M' G', st M' G' s' /\
    (forall n idx, ~ In n (outs (lms ls)) -> G' n idx = back (lms ls) e G n idx) /\
    (forall n, M' (Val n) = M (Val n)) /\
    (forall k i, ~ In k (ids ls) -> M' (Tmp k i) = M (Tmp k i))).
Proof.
  induction ls as [|l ls IH]; intros HO ND NO e M G s HD Hs Hc.
  - apply nd_nop. exists M, G. split; [assumption|]. split; [reflexivity|]. split; reflexivity.
  - inversion HO as [|? ? (L1 & L2 & L3) HO']; subst. inversion ND as [|? ? ND1 ND2]; subst. inversion NO as [|? ? NO1 NO2]; subst.
    destruct HD as [D1 D2]. destruct Hc as (C1 & C2 & C3).
    unfold model_backward. cbn [map rev]. rewrite map_app, pyseq_app. cbn [map]. rewrite pyseq_1.
    eapply nd_then; [apply (IH HO' ND2 NO2 (fire (ly_m l) e) M G s D2 Hs C3)|]. intros s1 _ (M1 & G1 & S1 & A1 & V1 & T1).
    eapply nd_weaken; [apply (L3 (args (ly_m l) e) M1 G1 s1 S1 D1)|].
    + intros j Hj. rewrite V1. apply C1. assumption.
    + eapply L1; [|exact C2]. intros i. apply T1. assumption.
    + intros s' _ (M' & G' & S' & A' & V' & T'). exists M', G'. split; [assumption|]. split; [|split].
      * intros n idx Hn. cbn [outs map In] in Hn.
        rewrite A' by (intros C; apply Hn; left; congruence). cbn [back map]. unfold acc.
        rewrite A1 by (intros C; apply Hn; right; assumption). f_equal. f_equal.
        apply functional_extensionality. intros i. apply A1. assumption.
      * intros n. rewrite V', V1. reflexivity.
      * intros k i Hk. cbn [map In] in Hk. rewrite T', T1 by tauto || (intros C; apply Hk; left; congruence). reflexivity.
Qed.

(** ** Clearing gradients *)
Lemma clear_tape acts M s : has M s -> (forall n, In n acts -> req n = true -> U (Grad n)) ->
  runs_nd (clear_grads (map node acts)) s
    (has (fun x => match x with Grad n => if in_dec Nat.eq_dec n acts then if req n then Some (fin (fun _ => 0)) else M x else M x | _ => M x end)).
Proof.
  revert M s. induction acts as [|a acts IH]; intros M s HM Hu.
  - apply nd_nop. eapply has_sub; [exact HM|]. intros [n|n|k i] f _ Hf; exact Hf.
  - unfold clear_grads. cbn [map]. rewrite pyseq_cons. unfold py_if at 1. cbn [node m_req m_grad].
    destruct (req a) eqn:Ea.
    + eapply nd_then; [apply (h_clear M s (Grad a) (fun _ => 0) HM); [apply Hu; [left; reflexivity|assumption]|reflexivity]|].
      intros s1 _ H1. eapply nd_weaken; [apply (IH _ s1 H1); intros; apply Hu; [right; assumption|assumption]|].
      intros s' _ H'. eapply has_sub; [exact H'|]. intros [n|n|k i] f _; cbn beta iota.
      * rewrite upd_ne by discriminate. auto.
      * destruct (in_dec Nat.eq_dec n (a :: acts)) as [[<-|Hn]|Hn], (in_dec Nat.eq_dec _ acts) as [Hn'|Hn']; try contradiction; rewrite ?Ea, ?upd_eq; auto.
        -- destruct (req n) eqn:En; [auto|]. unfold upd. destruct (gvar_dec (Grad n) (Grad a)) as [Eq|]; [|auto]. inversion Eq; subst. congruence.
        -- exfalso. apply Hn. right. assumption.
        -- rewrite upd_ne; [auto|]. intros C. inversion C; subst. apply Hn. left. reflexivity.
      * rewrite upd_ne by discriminate. auto.
    + eapply nd_then; [apply nd_nop; exact HM|]. intros s1 _ H1. eapply nd_weaken; [apply (IH _ s1 H1); intros; apply Hu; [right; assumption|assumption]|].
      intros s' _ H'. eapply has_sub; [exact H'|]. intros [n|n|k i] f _; cbn beta iota; auto.
      destruct (in_dec Nat.eq_dec n (a :: acts)) as [[<-|Hn]|Hn], (in_dec Nat.eq_dec _ acts) as [Hn'|Hn']; try contradiction; rewrite ?Ea; auto.
      exfalso. apply Hn. right. assumption.
Qed.
End Tape.
Arguments layer : clear implicits.
