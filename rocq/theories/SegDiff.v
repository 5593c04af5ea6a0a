(** * Forward then backward of one piece of a model *)
From Coq Require Import Reals Lra FunctionalExtensionality.
From Coquelicot Require Import Coquelicot.
From Verif Require Import Base Spec Geometry Traits TraitsProofs Runtime Ops RealOps TensorSem OneOut Sequence XReals NdRuns RSum AnyRuns XTriples HasRuns TapeMath VjpMath Tape PyLayers PyLinear Backprop PropLayers PropModel Segments.
Local Close Scope Z_scope.
Local Open Scope R_scope.
Notation lms ls := (map ly_m ls).
Notation ids ls := (map ly_id ls).

Section Seg.
Context {E : env} (req : nat -> bool).

(** As [differentiates] (PropLayers), for an object with intermediate activations [hid], when the
    gradients of the nodes [zero] are zero before. *)
Definition differentiates_from (zero ins hid : list nat) (y : nat) (F : (nat -> arr) -> arr) (D : (nat -> arr) -> Prop)
    (fwd bwd : res (list (task XR))) : Prop :=
  forall ns e G s, incl ins ns -> NoDup ns -> ~ In y ns -> (forall n, In n hid -> ~ In n ns) -> (forall n, In n ns -> U (Val n)) ->
    (forall n, In n zero -> G n = fun _ => 0) -> D (fun j => e (nth j ins 0%nat)) -> knows_state req ns e G s ->
    runs_nd (pyseq [fwd; bwd]) s (fun s' =>
      value s' y (F (fun j => e (nth j ins 0%nat))) /\
      exists G', knows_state req ns e G' s' /\
        forall n idx, In n ns -> inb (vshape n) idx ->
          is_derive (fun t => Rsuml (all_idx (vshape y)) (fun i => G y i * F (fun j => vary e n idx t (nth j ins 0%nat)) i))
            (e n idx) (G' n idx - G n idx)).

Theorem seg_differentiates (g : segment) zero ins hid y F (D : (nat -> arr) -> Prop) : segment_good req g -> NoDup (ids (sg_layers g)) ->
  ordered (lms (sg_layers g)) ins -> (forall n, In n (outs (lms (sg_layers g))) <-> n = y \/ In n hid) -> ~ In y hid -> incl hid zero -> incl (sg_zero g) zero ->
  (forall n, n = y \/ In n hid -> U (Val n)) ->
  (forall e, D (fun j => e (nth j ins 0%nat)) -> dom (lms (sg_layers g)) e) ->
  (forall e i, inb (vshape y) i -> eval (lms (sg_layers g)) e y i = F (fun j => e (nth j ins 0%nat)) i) ->
  differentiates_from zero ins hid y F D (pl_forward (sg_py g)) (pl_backward (sg_py g)).
Proof.
  intros (Sv & Hv & Hf & Hb) Hid HO Hout Hyh Hhz Hsz HUo HD HF ns e G s Hinc Hnd Hy Hhn HU HZ De Hs.
  set (ls := sg_layers g) in *. set (m := lms ls) in *.
  assert (Hleaf : forall n, In n ns -> ~ In n (outs m)) by (intros n Hn C; apply Hout in C as [->|C]; [contradiction|apply (Hhn n); assumption]).
  assert (Hord : ordered m ns) by (eapply ordered_incl; [exact Hinc|exact Hleaf|exact HO]).
  assert (Hdom : dom m e) by (apply HD; assumption).
  eapply py_cons; [apply (Hf e ns _ G s Hord Hdom (state_st req _ _ _ _ Hs) (knows_map ns e _))|].
  cbv beta. intros s1 (M1 & S1 & K1 & C1 & V1 & _). rewrite pyseq_1.
  eapply nd_weaken; [apply (Hb e M1 G s1 Hdom S1 C1)|].
  { intros n Hn. apply HZ, Hsz. assumption. }
  cbv beta. intros s2 _ (M2 & G2 & S2 & B2 & V2 & _). fold ls m in K1, B2.
  assert (Hyo : In y (outs m)) by (apply Hout; left; reflexivity).
  assert (Hpy : pos (vshape y)) by (apply wf_ps, wf_wft, UW; apply HUo; left; reflexivity).
  assert (Hssa : ssa m) by (eapply ordered_ssa; eassumption).
  split; [|exists G2; split].
  - assert (Hval : value s2 y (eval m e y)) by (apply S2; [apply HUo; left; reflexivity|]; cbn [ov]; rewrite V2; apply K1, in_or_app; left; assumption).
    intros idx Hi. rewrite (Hval idx Hi). unfold fin. f_equal. apply HF. assumption.
  - apply (st_state req ns e M2); [assumption| |assumption]. intros n Hn. rewrite V2, K1 by (apply in_or_app; right; assumption). f_equal. f_equal. apply eval_leaf. apply Hleaf. assumption.
  - intros n idx Hn Hi. rewrite B2 by (apply Hleaf; assumption).
    pose proof (back_gradient vshape (outs m ++ ns) m y (fun _ => True) (dot (vshape y) (G y)) (fun _ => G y) e G) as Hg.
    eapply is_derive_ext; [|apply Hg].
    + intros t. cbv beta. unfold dot. apply Rsuml_ext. intros i Hi'. apply all_idx_In in Hi'; [|assumption]. f_equal. apply HF. assumption.
    + apply ordered_NoDup; assumption.
    + intros k Hk. apply wf_ps, wf_wft, UW. apply in_app_iff in Hk as [Hk|Hk]; [apply HUo, Hout; assumption|apply HU; assumption].
    + unfold m. apply Forall_map. exact Hv.
    + assumption.
    + intros k Hk. apply in_or_app. left. assumption.
    + intros l' j Hl Hj. eapply ordered_inputs; eassumption.
    + assumption.
    + apply dot_gradient. assumption.
    + assumption.
    + exact I.
    + reflexivity.
    + intros k i Hk Hky _. apply Hout in Hk as [->|Hk]; [congruence|]. rewrite (HZ k) by (apply Hhz; assumption). reflexivity.
    + apply in_or_app. right. assumption.
    + apply Hleaf. assumption.
    + assumption.
Qed.

(** ** A model made of pieces *)
Record segs_ok (gs : list segment) (ns : list nat) (o lid : nat) : Prop := {
  sk_good : Forall (segment_good req) gs;
  sk_ids : NoDup (lid :: ids (all_layers gs));
  sk_ordered : ordered (lms (all_layers gs)) ns;
  sk_leaves : NoDup ns;
  sk_o : In o (outs (lms (all_layers gs)));
  sk_zero : only_here gs;
  sk_zero' : forall n, In n (all_zero gs) -> In n (outs (lms (all_layers gs))) /\ n <> o;
  sk_nodes : forall n, In n (outs (lms (all_layers gs)) ++ ns) -> node_ok req n
}.
Theorem seg_backprop RR (HR : run_kind RR) (gs : list segment) (acts ns : list nat) (o lid : nat) D L dL loss e G tmps s :
  segs_ok gs ns o lid -> incl (outs (lms (all_layers gs))) acts -> (forall n, In n acts -> req n = true -> U (Grad n)) ->
  gradient_of (vshape o) D L dL -> loss_good req RR (ids (all_layers gs)) o lid (map_of ns e tmps) D L dL loss ->
  dom (lms (all_layers gs)) e -> D (eval (lms (all_layers gs)) e o) -> before req acts ns e G tmps s ->
  (forall r s (P Q : store XR -> Prop), RR r s P -> (forall s', P s' -> Q s') -> RR r s Q) ->
  RR (pyseq [clear_grads (map (node req) acts); model_forward (map sg_py gs); loss; model_backward (map sg_py gs)]) s
    (after req (all_layers gs) acts ns o lid L e G).
Proof.
  intros [HL Hids Ho Hnd Hoo Hz1 Hz2 Hn] Hacts HUg HgL Hloss HD HDo Hs HRw.
  inversion Hids as [|? ? Hlid Hids']; subst. set (ls := all_layers gs) in *.
  assert (Sv : Forall saved_local ls /\ Forall (fun l => vjp vshape (ly_m l)) ls).
  { unfold ls, all_layers. clear - HL. induction HL as [|g gs (H1 & H2 & _) _ [I1 I2]]; [split; constructor|]. cbn [flat_map]. split; apply Forall_app; split; assumption. }
  destruct Sv as [Sv Hv].
  rewrite pyseq_cons. destruct HR as [Rl Rr]. eapply Rl; [apply (clear_st req acts _ G s (before_has req _ _ _ _ _ _ Hs) HUg)|].
  intros s1 _ H1. eapply HRw.
  - apply (core_seg req RR (conj Rl Rr) ls (all_zero gs) _ _ ns o lid D L dL loss e (map_of ns e tmps) (cleared acts G) s1); try assumption.
    + apply segs_fwd; assumption.
    + apply (segs_bwd req gs HL Hids' ns); assumption.
    + intros n Hin. apply (Hn n). apply in_or_app. tauto.
    + intros n Hin. unfold cleared. destruct (in_dec Nat.eq_dec n acts) as [|C]; [reflexivity|]. exfalso. apply C, Hacts. assumption.
    + apply knows_map.
  - cbv beta. intros s' (M' & G' & S' & K' & L' & V' & T' & B' & O').
    assert (Hleaf : forall n, In n ns -> leaf ls n) by (intros n Hin; eapply ordered_fresh; eassumption).
    split; [|split; [|split]].
    + intros n Hin. apply S'; [apply (Hn n Hin)|]. apply K'. assumption.
    + intros Hu. apply S'; assumption.
    + intros n Hin. apply S'; [apply (Hn n), in_or_app; tauto|]. cbn [ov]. rewrite V' by (apply Hleaf; assumption). apply knows_map. assumption.
    + exists G'. split; [|split].
      * intros n Hu Hr. apply S'; [assumption|]. cbn [ov]. rewrite Hr. reflexivity.
      * intros n idx Hin Hi. specialize (B' n idx Hin Hi). unfold cleared in B'. destruct (in_dec Nat.eq_dec n acts); exact B'.
      * intros n N1 N2 N3. rewrite O' by assumption. unfold cleared. destruct (in_dec Nat.eq_dec n acts); [contradiction|reflexivity].
Qed.
End Seg.
