(** * C49, C50: back-propagation through a whole model *)
From Coq Require Import Reals Lra FunctionalExtensionality.
From Coquelicot Require Import Coquelicot.
From Verif Require Import Base Spec Geometry Traits TraitsProofs Runtime Ops RealOps TensorSem OneOut ElemOps Formulas PropDeriv Axis Sequence XReals NdRuns AnyRuns RSum MatOps LossOps CrossEntropy PropSoftmax XTriples HasRuns TapeMath VjpMath Tape PyLayers PyLinear PySimple PyNorm Backprop Frob CeLoss PropLayers.
Local Close Scope Z_scope.
Local Open Scope R_scope.

Section Model.
Context {E : env} (req : nat -> bool).

(** A model: layers [ls] (each computing a function and adding its vector-Jacobian products),
    in an order in which every input is a leaf of [ns] (parameters, inputs) or was computed
    before; [o] is the output, [lid] names the temporaries of the loss, and all nodes are
    allocated. *)
Record model_ok (ls : list layer) (ns : list nat) (o lid : nat) : Prop := {
  mo_layers : Forall (layer_good req) ls;
  mo_ids : NoDup (lid :: map ly_id ls);
  mo_ordered : ordered (map ly_m ls) ns;
  mo_leaves : NoDup ns;
  mo_o : In o (outs (map ly_m ls));
  mo_nodes : forall n, In n (outs (map ly_m ls) ++ ns) -> node_ok req n
}.

(** Before: the leaves hold [e], the loss has its target, the gradients of parameters hold [G];
    the gradients of the activations [acts] need not hold anything. *)
Record before (acts ns : list nat) (e G : nat -> arr) (tmps : smap) (s : store XR) : Prop := {
  be_alloc : allocated s;
  be_val : forall n, In n ns -> value s n (e n);
  be_grad : forall n, U (Grad n) -> req n = true -> ~ In n acts -> gradient s n (G n);
  be_tmp : forall k i f, U (Tmp k i) -> tmps (Tmp k i) = Some f -> xval s (A (Tmp k i)) f
}.
Lemma before_has acts ns e G tmps s : before acts ns e G tmps s -> has (known_out req acts (map_of ns e tmps) G) s.
Proof.
  intros [[HK HS] HV HG HT]. split; [assumption|]. intros x Hx. split; [auto|]. intros f Hf. destruct x as [n|n|k i]; cbn [known_out map_of] in Hf.
  - destruct (in_dec Nat.eq_dec n ns); [|discriminate]. inversion Hf; subst. apply HV. assumption.
  - destruct (in_dec Nat.eq_dec n acts); [discriminate|]. destruct (req n) eqn:Er; [|discriminate]. inversion Hf; subst. apply HG; assumption.
  - apply HT; assumption.
Qed.

(** After: all nodes hold the values the model computes, the loss holds its value, and the
    gradient of every leaf has grown by the derivative of the loss in each of its entries.
    Gradients of leaves that are cleared along with the activations count as 0 before. *)
Definition after (ls : list layer) (acts ns : list nat) (o lid : nat) (L : arr -> R) (e G : nat -> arr) (s' : store XR) : Prop :=
  (forall n, In n (outs (map ly_m ls) ++ ns) -> value s' n (eval (map ly_m ls) e n)) /\
  (U (Tmp lid 0) -> temp s' lid 0 (fun _ => L (eval (map ly_m ls) e o))) /\
  (forall n, In n ns -> value s' n (e n)) /\
  exists G' : nat -> arr,
    (forall n, U (Grad n) -> req n = true -> gradient s' n (G' n)) /\
    (forall n idx, In n ns -> inb (vshape n) idx ->
       is_derive (fun t => L (eval (map ly_m ls) (vary e n idx t) o)) (e n idx) (G' n idx - (if in_dec Nat.eq_dec n acts then 0 else G n idx))) /\
    (forall n, ~ In n ns -> ~ In n (outs (map ly_m ls)) -> ~ In n acts -> G' n = G n).

Theorem model_backprop RR (HR : run_kind RR) (ls : list layer) (acts ns : list nat) (o lid : nat) D L dL loss e G tmps s :
  model_ok ls ns o lid -> incl (outs (map ly_m ls)) acts -> (forall n, In n acts -> req n = true -> U (Grad n)) ->
  gradient_of (vshape o) D L dL -> loss_good req RR (map ly_id ls) o lid (map_of ns e tmps) D L dL loss ->
  dom (map ly_m ls) e -> D (eval (map ly_m ls) e o) -> before acts ns e G tmps s ->
  (forall r s (P Q : store XR -> Prop), RR r s P -> (forall s', P s' -> Q s') -> RR r s Q) ->
  RR (pyseq [clear_grads (map (node req) acts); model_forward (map ly_py ls); loss; model_backward (map ly_py ls)]) s
    (after ls acts ns o lid L e G).
Proof.
  intros [HL Hids Ho Hnd Hoo Hn] Hacts HUg HgL Hloss HD HDo Hs HRw.
  inversion Hids as [|? ? Hlid Hids']; subst.
  rewrite pyseq_cons. destruct HR as [Rl Rr]. eapply Rl; [apply (clear_st req acts _ G s (before_has _ _ _ _ _ _ Hs) HUg)|].
  intros s1 _ H1. eapply HRw.
  - apply (core_st req RR (conj Rl Rr) ls ns o lid D L dL loss e (map_of ns e tmps) (cleared acts G) s1); try assumption.
    + intros n Hin. apply (Hn n). apply in_or_app. tauto.
    + intros n Hin. unfold cleared. destruct (in_dec Nat.eq_dec n acts) as [|C]; [reflexivity|]. exfalso. apply C, Hacts. assumption.
    + apply knows_map.
  - cbv beta. intros s' (M' & G' & S' & K' & L' & V' & T' & B' & O').
    assert (Hleaf : forall n, In n ns -> leaf ls n) by (intros n Hin; eapply ordered_fresh; eassumption).
    split; [|split; [|split]].
    + intros n Hin. apply S'; [apply (Hn n Hin)|]. apply K'. assumption.
    + intros Hu. apply S'; assumption.
    + intros n Hin. apply S'; [apply (Hn n), in_or_app; tauto|]. cbn [ov]. rewrite V' by (apply Hleaf; assumption). apply knows_map. assumption.
    + exists G'. split; [|split].
      * intros n Hu Hr. apply S'; [assumption|]. cbn [ov]. rewrite Hr. reflexivity.
      * intros n idx Hin Hi. specialize (B' n idx Hin Hi). unfold cleared in B'. destruct (in_dec Nat.eq_dec n acts); exact B'.
      * intros n N1 N2 N3. rewrite O' by assumption. unfold cleared. destruct (in_dec Nat.eq_dec n acts); [contradiction|reflexivity].
Qed.

(** C49, with the Frobenius loss: L = 1/2 |v - target|^2 over the entries of the output. *)
Theorem C49_backprop_frob (ls : list layer) (acts ns : list nat) (o lid : nat) (tgt : arr) e G s :
  model_ok ls ns o lid -> incl (outs (map ly_m ls)) acts -> (forall n, In n acts -> req n = true -> U (Grad n)) ->
  frob_ok req o lid -> dom (map ly_m ls) e ->
  before acts ns e G (upd (Tmp lid 1) (Some (fin tgt)) (fun _ => None)) s ->
  runs_nd (pyseq [clear_grads (map (node req) acts); model_forward (map ly_py ls);
      frob_calc (node req o) (A (Tmp lid 1)) (A (Tmp lid 0)) (A (Tmp lid 2)) (A (Tmp lid 3)); model_backward (map ly_py ls)]) s
    (after ls acts ns o lid (fun v => / 2 * Rsuml (all_idx (vshape o)) (fun idx => (v idx - tgt idx) * (v idx - tgt idx))) e G).
Proof.
  intros Hm Hacts HU Hf HD Hs.
  apply (model_backprop runs_nd kind_nd ls acts ns o lid (fun _ => True) (frob_L (vshape o) tgt) (frob_dL tgt)
    (frob_calc (node req o) (A (Tmp lid 1)) (A (Tmp lid 0)) (A (Tmp lid 2)) (A (Tmp lid 3))) e G (upd (Tmp lid 1) (Some (fin tgt)) (fun _ => None)) s); try assumption.
  - apply frob_gradient. apply wf_ps, wf_wft, UW. apply (fr_o _ _ _ Hf).
  - apply frob_good; [assumption| |].
    + pose proof (mo_ids _ _ _ _ Hm) as Hi. inversion Hi; assumption.
    + cbn [map_of]. apply upd_eq.
  - exact I.
  - intros r s0 P Q HP HPQ. eapply nd_weaken; [exact HP|]. intros s' _. apply HPQ.
Qed.

(** C50, with the cross-entropy loss (labels [lab], classes along axis 0, factor [a]):
    L = L0 + a * sum over the samples of (log sum exp of the logits - the logit of the label),
    where L0 was in the accumulated value before. *)
Theorem C50_backprop_crossentropy (ls : list layer) (acts ns : list nat) (o lid : nat) labels lab n sh (a L0 : R) e G s :
  model_ok ls ns o lid -> incl (outs (map ly_m ls)) acts -> (forall n, In n acts -> req n = true -> U (Grad n)) ->
  ce_ok req o lid labels lab n sh -> dom (map ly_m ls) e ->
  before acts ns e G (upd (Tmp lid 0) (Some (fin (fun _ => L0))) (fun _ => None)) s ->
  runs_any (pyseq [clear_grads (map (node req) acts); model_forward (map ly_py ls);
      crossentropy_calc (Fin a) (A (Val o)) labels (A (Tmp lid 1)) (A (Tmp lid 2)) (A (Tmp lid 0)) (A (Grad o)); model_backward (map ly_py ls)]) s
    (after ls acts ns o lid (fun v => L0 + a * Rsuml (all_idx sh) (fun idx => ln (Rsum n (fun k => exp (v (k :: idx)))) - v (lab idx :: idx))) e G).
Proof.
  intros Hm Hacts HU Hf HD Hs.
  apply (model_backprop runs_any kind_any ls acts ns o lid (fun _ => True) (fun v => L0 + ce_loss a n sh lab v)
    (fun v i => match i with l :: idx => ce_grad a n lab v l idx | [] => 0 end)
    (crossentropy_calc (Fin a) (A (Val o)) labels (A (Tmp lid 1)) (A (Tmp lid 2)) (A (Tmp lid 0)) (A (Grad o))) e G
    (upd (Tmp lid 0) (Some (fin (fun _ => L0))) (fun _ => None)) s); try assumption.
  - eapply ce_gradient_o. exact Hf.
  - eapply ce_good; [exact Hf| |].
    + pose proof (mo_ids _ _ _ _ Hm) as Hi. inversion Hi; assumption.
    + cbn [map_of]. apply upd_eq.
  - exact I.
  - intros r s0 P Q HP HPQ. eapply any_weaken; [exact HP|]. intros s' _. apply HPQ.
Qed.
End Model.
