(** * One pass of training: clear, forward, loss, backward *)
From Coq Require Import Reals Lra FunctionalExtensionality.
From Coquelicot Require Import Coquelicot.
From Verif Require Import Base Spec Geometry Traits TraitsProofs Runtime Ops RealOps TensorSem OneOut Sequence XReals NdRuns RSum AnyRuns XTriples HasRuns TapeMath VjpMath Tape PyLayers PyLinear.
Local Close Scope Z_scope.
Local Open Scope R_scope.

Section Spec.
Context {E : env} (req : nat -> bool).

(** The value (gradient) tensor of node [n] holds the finite reals [f]. *)
Definition value (s : store XR) (n : nat) (f : arr) : Prop := xval s (A (Val n)) (fin f).
Definition gradient (s : store XR) (n : nat) (f : arr) : Prop := xval s (A (Grad n)) (fin f).
Definition temp (s : store XR) (k i : nat) (f : arr) : Prop := xval s (A (Tmp k i)) (fin f).
(** All tensors in use are allocated; the other data (token indices, masks) is as it should be. *)
Definition allocated (s : store XR) : Prop := K s /\ forall x, U x -> stored KF s (A x).

(** A layer whose program computes its function and whose backward program adds the
    vector-Jacobian products. *)
Definition layer_good (l : layer) : Prop := layer_ok req l /\ vjp vshape (ly_m l).

(** A program that reads node [o] and writes the gradient of [o] and the temporaries of [lid],
    the first of which is the value of the loss; other temporaries than those of the layers [ids]
    are as in [M0].  [RR] is [runs_nd], or [runs_any] for a program
    with commutative accesses. *)
Definition loss_good (RR : res (list (task XR)) -> store XR -> (store XR -> Prop) -> Prop) (ids : list nat) (o lid : nat) (M0 : smap) (D : arr -> Prop) (L : arr -> R) (dL : arr -> arr) (r : res (list (task XR))) : Prop :=
  forall v M G s, st req M G s -> (forall k i, ~ In k ids -> M (Tmp k i) = M0 (Tmp k i)) -> M (Val o) = Some (fin v) -> D v ->
    RR r s (fun s' => exists M' G', st req M' G' s' /\ (forall idx, inb (vshape o) idx -> G' o idx = dL v idx) /\ (forall n, n <> o -> G' n = G n) /\
      M' (Tmp lid 0) = Some (fin (fun _ => L v)) /\
      (forall n, M' (Val n) = M (Val n)) /\ (forall k i, k <> lid -> M' (Tmp k i) = M (Tmp k i))).

Definition leaf (ls : list layer) (n : nat) : Prop := ~ In n (outs (map ly_m ls)).

Lemma ordered_inputs (ls : list mlayer) ns : ordered ls ns -> forall l j, In l ls -> (j < arity l)%nat -> In (inp l j) (outs ls ++ ns).
Proof.
  revert ns. induction ls as [|l0 ls IH]; intros ns H l j Hl Hj; [destruct Hl|]. destruct H as (H1 & H2 & H3). destruct Hl as [->|Hl].
  - apply in_or_app. right. apply H1. assumption.
  - specialize (IH _ H3 l j Hl Hj). apply in_app_or in IH as [IH|[IH|IH]]; cbn; [right; apply in_or_app; left; assumption|left; congruence|right; apply in_or_app; right; assumption].
Qed.
Lemma ordered_NoDup (ls : list mlayer) ns : ordered ls ns -> NoDup ns -> NoDup (outs ls ++ ns).
Proof.
  revert ns. induction ls as [|l ls IH]; intros ns H Hn; [assumption|]. destruct H as (H1 & H2 & H3).
  specialize (IH _ H3 (NoDup_cons _ H2 Hn)). cbn. apply (NoDup_Add (a := ml_out l) (l := outs ls ++ ns)) in IH; [|apply Add_app]. constructor; tauto.
Qed.
Lemma back_other (ls : list mlayer) e G n : (forall l j, In l ls -> (j < arity l)%nat -> inp l j <> n) -> back ls e G n = G n.
Proof.
  revert e. induction ls as [|l ls IH]; intros e H; [reflexivity|]. cbn [back]. unfold acc. apply functional_extensionality. intros idx.
  rewrite IH by (intros; apply H; [right; assumption|assumption]). unfold contrib. rewrite (Nsum_ext _ _ (fun _ => 0)).
  - unfold Nsum. rewrite Rsuml_0 by reflexivity. ring.
  - intros j Hj. destruct (Nat.eq_dec (inp l j) n) as [En|]; [|reflexivity]. exfalso. eapply H; [left; reflexivity|exact Hj|exact En].
Qed.
(** Gradients after clear_activations_grads. *)
Definition cleared (acts : list nat) (G : nat -> arr) : nat -> arr := fun n => if in_dec Nat.eq_dec n acts then fun _ => 0 else G n.

(** How a program may be put between others. *)
Definition run_kind (RR : res (list (task XR)) -> store XR -> (store XR -> Prop) -> Prop) : Prop :=
  (forall r1 r2 s P Q, runs_nd r1 s P -> (forall s1, tinv s s1 -> P s1 -> RR r2 s1 Q) -> RR (then_ r1 r2) s Q) /\
  (forall r1 r2 s P Q, RR r1 s P -> (forall s1, tinv s s1 -> P s1 -> runs_nd r2 s1 Q) -> RR (then_ r1 r2) s Q).
Lemma kind_nd : run_kind runs_nd.
Proof. split; intros; eapply nd_then; eassumption. Qed.
Lemma kind_any : run_kind runs_any.
Proof. split; intros; [eapply any_then_l|eapply any_then_r]; eassumption. Qed.

(** Forward, loss, backward, from a state in which the gradients of the activations are zero. *)
Theorem core_st RR (HR : run_kind RR) (ls : list layer) (ns : list nat) (o lid : nat) D L dL loss e M G s :
  Forall layer_good ls -> NoDup (map ly_id ls) -> ~ In lid (map ly_id ls) -> ordered (map ly_m ls) ns -> NoDup ns -> In o (outs (map ly_m ls)) ->
  (forall n, In n ns \/ In n (outs (map ly_m ls)) -> U (Val n)) ->
  (forall n, In n (outs (map ly_m ls)) -> G n = fun _ => 0) ->
  gradient_of (vshape o) D L dL -> loss_good RR (map ly_id ls) o lid M D L dL loss ->
  dom (map ly_m ls) e -> D (eval (map ly_m ls) e o) -> st req M G s -> knows e M ns ->
  RR (pyseq [model_forward (map ly_py ls); loss; model_backward (map ly_py ls)]) s (fun s' =>
    exists M' G', st req M' G' s' /\ knows (eval (map ly_m ls) e) M' (outs (map ly_m ls) ++ ns) /\
      M' (Tmp lid 0) = Some (fin (fun _ => L (eval (map ly_m ls) e o))) /\
      (forall n, leaf ls n -> M' (Val n) = M (Val n)) /\
      (forall k i, ~ In k (map ly_id ls) -> k <> lid -> M' (Tmp k i) = M (Tmp k i)) /\
      (forall n idx, In n ns -> inb (vshape n) idx ->
         is_derive (fun t => L (eval (map ly_m ls) (vary e n idx t) o)) (e n idx) (G' n idx - G n idx)) /\
      (forall n, ~ In n ns -> leaf ls n -> G' n = G n)).
Proof.
  intros HG Hid Hlid Hord Hnd Ho HU H0 HgL HLg HD HDo Hs Hk.
  set (m := map ly_m ls) in *.
  assert (Hok : Forall (layer_ok req) ls) by (eapply Forall_impl; [|exact HG]; intros l []; assumption).
  assert (Hv : Forall (vjp vshape) m). { unfold m. apply Forall_map. eapply Forall_impl; [|exact HG]. intros l []; assumption. }
  assert (Hssa : ssa m) by (eapply ordered_ssa; eassumption).
  destruct HR as [Rl Rr]. rewrite pyseq_cons.
  apply (Rl _ _ s (fun s' => exists M', st req M' G s' /\ knows (eval m e) M' (outs m ++ ns) /\ chain ls e M' /\
      (forall n, ~ In n (outs m) -> M' (Val n) = M (Val n)) /\ (forall k i, ~ In k (map ly_id ls) -> M' (Tmp k i) = M (Tmp k i)))).
  { apply (forward_tape req ls Hok Hid e ns M G s); assumption. }
  intros s2 _ (M2 & H2 & K2 & C2 & V2 & T2).
  rewrite pyseq_cons. eapply Rr; [apply (HLg (eval m e o) M2 G s2 H2)|].
  { assumption. } { apply K2. apply in_or_app. left. assumption. } { assumption. }
  intros s3 _ (M3 & G3 & H3 & Go & Gn & L3 & V3 & T3). cbv beta.
  assert (C3 : chain ls e M3).
  { apply (chain_keep req ls e M2 M3 Hok V3); [|assumption]. intros k i Hk'. apply T3. intros ->. contradiction. }
  assert (Hnd' : NoDup (outs m)).
  { clear - Hssa. induction m as [|l m IH]; [constructor|]. destruct Hssa as (_ & H2 & H3). constructor; [|auto].
    intros Hin. apply in_map_iff in Hin as (l' & E1 & E2). rewrite Forall_forall in H2. destruct (H2 _ E2). congruence. }
  eapply py_cons; [apply (backward_tape req ls Hok Hid Hnd' e M3 G3 s3 HD H3 C3)|].
  intros s4 (M4 & G4 & H4 & B4 & V4 & T4). cbv beta in *. apply py_nil.
  exists M4, G4. split; [assumption|]. split; [|split; [|split; [|split; [|split]]]].
  - intros n Hn. rewrite V4, V3. apply K2. assumption.
  - rewrite T4 by assumption. assumption.
  - intros n Hl. rewrite V4, V3, V2 by assumption. reflexivity.
  - intros k i Hk1 Hk'. rewrite T4, T3, T2 by assumption. reflexivity.
  - intros n idx Hn Hi.
    assert (Hl : ~ In n (outs m)) by (eapply ordered_fresh; eassumption).
    rewrite <- (Gn n) by (intros ->; contradiction).
    rewrite B4 by assumption.
    apply (back_gradient vshape (outs m ++ ns) m o D L dL e G3); try assumption.
    + apply ordered_NoDup; assumption.
    + intros k Hk'. apply wf_ps, wf_wft, UW, HU. apply in_app_or in Hk'. tauto.
    + intros k Hk'. apply in_or_app. left. assumption.
    + intros l j Hl' Hj. eapply ordered_inputs; eassumption.
    + intros k i Hk' Hko Hik. rewrite Gn by assumption. rewrite H0 by assumption. reflexivity.
    + apply in_or_app. right. assumption.
  - intros n Hn Hl. apply functional_extensionality. intros idx. rewrite B4 by assumption. rewrite back_other.
    + rewrite Gn by (intros ->; apply Hl; assumption). reflexivity.
    + intros l j Hl' Hj En. pose proof (ordered_inputs m ns Hord l j Hl' Hj) as Hin. rewrite En in Hin. apply in_app_or in Hin as [Hin|Hin]; contradiction.
Qed.

(** clear_activations_grads, whatever the gradients of the activations were before *)
Definition known_out (acts : list nat) (M : smap) (G : nat -> arr) : smap := fun x =>
  match x with Grad n => if in_dec Nat.eq_dec n acts then None else if req n then Some (fin (G n)) else None | _ => M x end.
Lemma clear_st acts M G s : has (known_out acts M G) s -> (forall n, In n acts -> req n = true -> U (Grad n)) ->
  runs_nd (clear_grads (map (node req) acts)) s (st req M (cleared acts G)).
Proof.
  intros Hs HU. eapply nd_weaken; [apply (clear_tape req acts _ s Hs HU)|]. intros s1 _ H1. eapply has_sub; [exact H1|].
  intros [n|n|k i] f _ Hf; cbn [ov known_out] in *; try assumption. unfold cleared in Hf. destruct (in_dec Nat.eq_dec n acts); destruct (req n); try discriminate; assumption.
Qed.
End Spec.
