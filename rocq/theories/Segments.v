(** * Programs that are not one layer after the other

    A piece of a model whose forward and backward programs do what the layers [ls] would do one
    after the other, possibly in another order; some layers store a gradient instead of
    adding to it, which is the same if that gradient is zero. *)
From Coq Require Import Reals Lra FunctionalExtensionality.
From Coquelicot Require Import Coquelicot.
From Verif Require Import Base Spec Geometry Traits TraitsProofs Runtime Ops RealOps TensorSem OneOut Sequence XReals NdRuns RSum AnyRuns XTriples HasRuns TapeMath VjpMath Tape PyLayers PyLinear Backprop PropLayers PropModel.
Local Close Scope Z_scope.
Local Open Scope R_scope.
Notation lms ls := (map ly_m ls).
Notation ids ls := (map ly_id ls).

(** ** Lists of layers put together *)
Lemma eval_app l1 l2 e : eval (l1 ++ l2) e = eval l2 (eval l1 e).
Proof. revert e. induction l1 as [|l l1 IH]; intros e; [reflexivity|]. cbn [app eval]. apply IH. Qed.
Lemma dom_app l1 l2 e : dom (l1 ++ l2) e <-> dom l1 e /\ dom l2 (eval l1 e).
Proof. revert e. induction l1 as [|l l1 IH]; intros e; cbn [app eval dom]; [tauto|]. rewrite IH. tauto. Qed.
Lemma back_app l1 l2 e G : back (l1 ++ l2) e G = back l1 e (back l2 (eval l1 e) G).
Proof. revert e. induction l1 as [|l l1 IH]; intros e; [reflexivity|]. cbn [app eval back]. rewrite IH. reflexivity. Qed.
Lemma ordered_app l1 l2 ns : ordered (l1 ++ l2) ns <-> ordered l1 ns /\ ordered l2 (rev (outs l1) ++ ns).
Proof.
  revert ns. induction l1 as [|l l1 IH]; intros ns; cbn [app ordered outs map rev]; [tauto|]. rewrite IH. fold (outs l1). rewrite <- app_assoc. cbn [app]. tauto.
Qed.
Lemma ordered_incl ls ns ns' : incl ns ns' -> (forall n, In n ns' -> ~ In n (outs ls)) -> ordered ls ns -> ordered ls ns'.
Proof.
  revert ns ns'. induction ls as [|l ls IH]; intros ns ns' Hi Hn H; cbn [ordered] in *; [exact I|]. destruct H as (H1 & H2 & H3). split; [|split].
  - intros j Hj. apply Hi, H1. assumption.
  - intros C. apply (Hn _ C). left. reflexivity.
  - apply (IH (ml_out l :: ns)); [intros n [<-|H]; [left; reflexivity|right; apply Hi; assumption]| |assumption].
    intros n [<-|H] C; [|apply (Hn n H); right; assumption]. apply (ordered_fresh ls (ml_out l :: ns) (ml_out l) H3); [left; reflexivity|assumption].
Qed.
Lemma acc_agree l vs G G' n : G n = G' n -> G (ml_out l) = G' (ml_out l) -> acc l vs G n = acc l vs G' n.
Proof. intros H1 H2. unfold acc. apply functional_extensionality. intros idx. rewrite H1, H2. reflexivity. Qed.
Lemma back_agree ls e G G' n : G n = G' n -> (forall m, In m (outs ls) -> G m = G' m) -> back ls e G n = back ls e G' n.
Proof.
  revert e n. induction ls as [|l ls IH]; intros e n H1 H2; [assumption|]. cbn [back]. apply acc_agree; apply IH; try assumption; intros; apply H2; [right; assumption|left; reflexivity|right; assumption].
Qed.

Section Seg.
Context {E : env} (req : nat -> bool).
Implicit Types (M : smap) (s : store XR) (G e vs : nat -> arr).
Notation st := (st req).

Lemma chain_app l1 l2 e M : chain (l1 ++ l2) e M <-> chain l1 e M /\ chain l2 (eval (lms l1) e) M.
Proof. revert e. induction l1 as [|l l1 IH]; intros e; cbn [app chain eval map]; [tauto|]. rewrite IH. tauto. Qed.
Lemma chain_kept ls e M M' : Forall saved_local ls -> (forall j l, In l ls -> (j < arity (ly_m l))%nat -> M' (Val (inp (ly_m l) j)) = M (Val (inp (ly_m l) j))) ->
  (forall k i, In k (ids ls) -> M' (Tmp k i) = M (Tmp k i)) -> chain ls e M -> chain ls e M'.
Proof.
  revert e. induction ls as [|l ls IH]; intros e HO H1 H2 H; [exact I|]. inversion HO as [|? ? L1 HO']; subst.
  destruct H as (C1 & C2 & C3). split; [|split].
  - intros j Hj. rewrite H1; [apply C1; assumption|left; reflexivity|assumption].
  - eapply L1; [|exact C2]. intros i. apply H2. left. reflexivity.
  - apply IH; auto; [intros j l' Hl'; apply H1; right; assumption|]. intros k i Hk. apply H2. right. assumption.
Qed.

(** [code] does what the forward passes of [ls] do. *)
Definition tape_fwd (ls : list layer) (code : res (list (task XR))) : Prop :=
  forall e ns M G s, ordered (lms ls) ns -> dom (lms ls) e -> st M G s -> knows e M ns ->
  runs_nd code s (fun s' => exists M', st M' G s' /\
    knows (eval (lms ls) e) M' (outs (lms ls) ++ ns) /\ chain ls e M' /\
    (forall n, ~ In n (outs (lms ls)) -> M' (Val n) = M (Val n)) /\
    (forall k i, ~ In k (ids ls) -> M' (Tmp k i) = M (Tmp k i))).
(** [code] does what the backward passes of [ls] do if the gradients of the nodes [Z] are zero. *)
Definition tape_bwd (Z : list nat) (ls : list layer) (code : res (list (task XR))) : Prop :=
  forall e M G s, dom (lms ls) e -> st M G s -> chain ls e M -> (forall n, In n Z -> G n = fun _ => 0) ->
  runs_nd code s (fun s' => exists M' G', st M' G' s' /\
    (forall n idx, ~ In n (outs (lms ls)) -> G' n idx = back (lms ls) e G n idx) /\
    (forall n, M' (Val n) = M (Val n)) /\
    (forall k i, ~ In k (ids ls) -> M' (Tmp k i) = M (Tmp k i))).

Lemma fwd_1 l : fwd_ok req l -> tape_fwd [l] (pl_forward (ly_py l)).
Proof.
  intros H e ns M G s (O1 & O2 & _) [D1 _] Hs Hk. cbn [map] in *.
  assert (Hin : inputs (ly_m l) (args (ly_m l) e) M) by (intros j Hj; apply Hk; apply O1; assumption).
  eapply nd_weaken; [apply (H _ M G s Hs D1 Hin)|]. intros s' _ (M' & S1 & V1 & Sv & K1 & T1). exists M'. split; [assumption|]. split; [|split; [split; [|split; [exact Sv|exact I]]|split]].
  - intros n [<-|Hn]; cbn [eval]; unfold fire.
    + destruct (Nat.eq_dec _ _); [assumption|congruence].
    + cbn [outs map app] in Hn. destruct (Nat.eq_dec n (ml_out (ly_m l))) as [->|]; [contradiction|]. rewrite K1 by assumption. apply Hk. assumption.
  - intros j Hj. rewrite K1; [apply Hin; assumption|]. intros C. apply O2. rewrite <- C. apply O1. assumption.
  - intros n Hn. apply K1. intros C. apply Hn. left. congruence.
  - intros k i Hk'. apply T1. intros C. apply Hk'. left. congruence.
Qed.
Lemma bwd_1 l : bwd_ok req l -> tape_bwd [] [l] (pl_backward (ly_py l)).
Proof.
  intros H e M G s [D1 _] Hs (C1 & C2 & _) _. eapply nd_weaken; [apply (H _ M G s Hs D1 C1 C2)|].
  intros s' _ (M' & G' & S1 & A1 & V1 & T1). exists M', G'. split; [assumption|]. split; [|split].
  - intros n idx Hn. cbn [map back]. apply A1. intros C. apply Hn. left. congruence.
  - assumption.
  - intros k i Hk'. apply T1. intros C. apply Hk'. left. congruence.
Qed.
Lemma fwd_app l1 l2 c1 c2 : Forall saved_local l1 -> NoDup (ids (l1 ++ l2)) -> tape_fwd l1 c1 -> tape_fwd l2 c2 -> tape_fwd (l1 ++ l2) (then_ c1 c2).
Proof.
  intros Hsv Hid H1 H2 e ns M G s HO HD Hs Hk. rewrite map_app in *. apply ordered_app in HO as [O1 O2]. apply dom_app in HD as [D1 D2].
  assert (O2' : ordered (lms l2) (outs (lms l1) ++ ns)).
  { eapply ordered_incl; [| |exact O2]; [intros n; rewrite !in_app_iff, <- in_rev; tauto|].
    intros n Hn. eapply ordered_fresh; [exact O2|]. rewrite in_app_iff, <- in_rev. rewrite in_app_iff in Hn. assumption. }
  eapply nd_then; [apply (H1 e ns M G s O1 D1 Hs Hk)|]. intros s1 _ (M1 & S1 & K1 & C1 & V1 & T1).
  eapply nd_weaken; [apply (H2 _ _ M1 G s1 O2' D2 S1 K1)|]. intros s2 _ (M2 & S2 & K2 & C2 & V2 & T2).
  assert (Hout : outs (lms l1 ++ lms l2) = outs (lms l1) ++ outs (lms l2)) by (unfold outs; apply map_app).
  exists M2. split; [assumption|]. split; [|split; [|split]].
  - rewrite eval_app, Hout. intros n Hn. apply K2. rewrite !in_app_iff in *. tauto.
  - apply chain_app. split; [|assumption]. apply (chain_kept l1 e M1 M2 Hsv); [| |assumption].
    + intros j l Hl Hj. apply V2. eapply ordered_fresh; [exact O2'|]. eapply ordered_inputs; [exact O1|apply in_map; assumption|assumption].
    + intros k i Hk'. apply T2. intros C.
      clear - Hid Hk' C. induction (ids l1) as [|a l IH]; [destruct Hk'|]. cbn [app] in Hid. apply NoDup_cons_iff in Hid as [N1 N2]. destruct Hk' as [->|Hk']; [apply N1, in_or_app; right; assumption|apply IH; assumption].
  - intros n Hn. rewrite Hout, in_app_iff in Hn. rewrite V2, V1 by tauto. reflexivity.
  - intros k i Hk'. rewrite map_app, in_app_iff in Hk'. rewrite T2, T1 by tauto. reflexivity.
Qed.
Lemma bwd_app Z1 Z2 l1 l2 c1 c2 ns : Forall saved_local l1 -> NoDup (ids (l1 ++ l2)) -> ordered (lms (l1 ++ l2)) ns ->
  (forall n, In n Z1 -> ~ In n (outs (lms l2)) /\ forall l j, In l (lms l2) -> (j < arity l)%nat -> inp l j <> n) ->
  tape_bwd Z1 l1 c1 -> tape_bwd Z2 l2 c2 -> tape_bwd (Z1 ++ Z2) (l1 ++ l2) (then_ c2 c1).
Proof.
  intros Hsv Hid HO HZ H1 H2 e M G s HD Hs HC Hz. rewrite map_app in *. apply dom_app in HD as [D1 D2]. apply chain_app in HC as [C1 C2].
  apply ordered_app in HO as [O1 O2].
  assert (Hno : forall n, In n (outs (lms l1)) -> ~ In n (outs (lms l2))) by (intros n Hn; eapply ordered_fresh; [exact O2|apply in_or_app; left; apply in_rev in Hn; assumption]).
  assert (Hdi : forall k, In k (ids l1) -> ~ In k (ids l2)).
  { intros k Hk' C. clear - Hid Hk' C. induction (ids l1) as [|a l IH]; [destruct Hk'|]. cbn [app] in Hid. apply NoDup_cons_iff in Hid as [N1 N2]. destruct Hk' as [->|Hk']; [apply N1, in_or_app; right; assumption|apply IH; assumption]. }
  assert (Hout : outs (lms l1 ++ lms l2) = outs (lms l1) ++ outs (lms l2)) by (unfold outs; apply map_app).
  eapply nd_then; [apply (H2 _ M G s D2 Hs C2); intros n Hn; apply Hz, in_or_app; right; assumption|]. intros s1 _ (M1 & G1 & S1 & A1 & V1 & T1).
  assert (A1' : forall n, ~ In n (outs (lms l2)) -> G1 n = back (lms l2) (eval (lms l1) e) G n) by (intros n Hn; apply functional_extensionality; intros idx; apply A1; assumption).
  eapply nd_weaken; [apply (H1 e M1 G1 s1 D1 S1)|].
  - apply (chain_kept l1 e M M1 Hsv); [intros; apply V1| |assumption]. intros k i Hk. apply T1. apply Hdi. assumption.
  - intros n Hn. destruct (HZ n Hn) as [Z1' Z2']. rewrite A1' by assumption. rewrite back_other by assumption. apply Hz, in_or_app. left. assumption.
  - intros s2 _ (M2 & G2 & S2 & A2 & V2 & T2). exists M2, G2. split; [assumption|]. split; [|split].
    + intros n idx Hn. rewrite Hout, in_app_iff in Hn. rewrite A2 by tauto. rewrite back_app.
      rewrite (back_agree (lms l1) e G1 (back (lms l2) (eval (lms l1) e) G)); [reflexivity|apply A1'; tauto|]. intros m Hm. apply A1'. apply Hno. assumption.
    + intros n. rewrite V2, V1. reflexivity.
    + intros k i Hk'. rewrite map_app, in_app_iff in Hk'. rewrite T2, T1 by tauto. reflexivity.
Qed.

(** ** The pieces of a model *)
Record segment := { sg_layers : list layer; sg_zero : list nat; sg_py : pylayer XR }.
Definition segment_good (g : segment) : Prop :=
  Forall saved_local (sg_layers g) /\ Forall (fun l => vjp vshape (ly_m l)) (sg_layers g) /\
  tape_fwd (sg_layers g) (pl_forward (sg_py g)) /\ tape_bwd (sg_zero g) (sg_layers g) (pl_backward (sg_py g)).
Definition single (l : layer) : segment := {| sg_layers := [l]; sg_zero := []; sg_py := ly_py l |}.
Lemma single_good l : layer_good req l -> segment_good (single l).
Proof.
  intros [(H1 & H2 & H3) H4]. split; [constructor; [assumption|constructor]|]. split; [constructor; [assumption|constructor]|]. split; [apply fwd_1|apply bwd_1]; assumption.
Qed.
Definition all_layers (gs : list segment) : list layer := flat_map sg_layers gs.
Definition all_zero (gs : list segment) : list nat := flat_map sg_zero gs.
(** a node whose gradient is stored and not added to is read by no later layer *)
Fixpoint only_here (gs : list segment) : Prop :=
  match gs with
  | [] => True
  | g :: gs => (forall n, In n (sg_zero g) -> ~ In n (outs (lms (all_layers gs))) /\ forall l j, In l (lms (all_layers gs)) -> (j < arity l)%nat -> inp l j <> n) /\ only_here gs
  end.
Lemma segs_fwd gs : Forall segment_good gs -> NoDup (ids (all_layers gs)) -> tape_fwd (all_layers gs) (model_forward (map sg_py gs)).
Proof.
  induction gs as [|g gs IH]; intros HG Hid.
  - intros e ns M G s _ _ Hs Hk. apply nd_nop. exists M. split; [assumption|]. split; [exact Hk|]. split; [exact I|]. split; reflexivity.
  - inversion HG as [|? ? (H1 & H2 & H3 & H4) HG']; subst. change (all_layers (g :: gs)) with (sg_layers g ++ all_layers gs) in *.
    apply (fwd_app (sg_layers g) (all_layers gs)); try assumption. apply IH; [assumption|]. rewrite map_app in Hid. clear - Hid. induction (ids (sg_layers g)) as [|a l IH]; [assumption|]. apply NoDup_cons_iff in Hid as [_ N]. auto.
Qed.
Lemma segs_bwd gs : Forall segment_good gs -> NoDup (ids (all_layers gs)) -> forall ns, ordered (lms (all_layers gs)) ns -> only_here gs ->
  tape_bwd (all_zero gs) (all_layers gs) (model_backward (map sg_py gs)).
Proof.
  induction gs as [|g gs IH]; intros HG Hid ns HO HZ.
  - intros e M G s _ Hs _ _. apply nd_nop. exists M, G. split; [assumption|]. split; [reflexivity|]. split; reflexivity.
  - inversion HG as [|? ? (H1 & H2 & H3 & H4) HG']; subst. destruct HZ as [Z1 Z2]. change (all_layers (g :: gs)) with (sg_layers g ++ all_layers gs) in *.
    change (all_zero (g :: gs)) with (sg_zero g ++ all_zero gs).
    assert (Eq : model_backward (map sg_py (g :: gs)) = then_ (model_backward (map sg_py gs)) (pl_backward (sg_py g))).
    { unfold model_backward. cbn [map rev]. rewrite map_app, pyseq_app. cbn [map]. rewrite pyseq_1. reflexivity. }
    rewrite Eq. apply (bwd_app (sg_zero g) (all_zero gs) (sg_layers g) (all_layers gs) _ _ ns); try assumption.
    rewrite map_app in HO. apply ordered_app in HO as [O1 O2].
    apply (IH HG') with (ns := rev (outs (lms (sg_layers g))) ++ ns); try assumption.
    rewrite map_app in Hid. clear - Hid. induction (ids (sg_layers g)) as [|a l IH]; [assumption|]. apply NoDup_cons_iff in Hid as [_ N]. auto.
Qed.

(** ** Forward, loss, backward; cf. [core_st] *)
Theorem core_seg RR (HR : run_kind RR) (ls : list layer) (Z : list nat) (fw bw : res (list (task XR))) (ns : list nat) (o lid : nat) D L dL loss e M G s :
  Forall saved_local ls -> Forall (fun l => vjp vshape (ly_m l)) ls -> tape_fwd ls fw -> tape_bwd Z ls bw -> (forall n, In n Z -> In n (outs (lms ls)) /\ n <> o) ->
  NoDup (ids ls) -> ~ In lid (ids ls) -> ordered (lms ls) ns -> NoDup ns -> In o (outs (lms ls)) ->
  (forall n, In n ns \/ In n (outs (lms ls)) -> U (Val n)) ->
  (forall n, In n (outs (lms ls)) -> G n = fun _ => 0) ->
  gradient_of (vshape o) D L dL -> loss_good req RR (ids ls) o lid M D L dL loss ->
  dom (lms ls) e -> D (eval (lms ls) e o) -> st M G s -> knows e M ns ->
  RR (pyseq [fw; loss; bw]) s (fun s' =>
    exists M' G', st M' G' s' /\ knows (eval (lms ls) e) M' (outs (lms ls) ++ ns) /\
      M' (Tmp lid 0) = Some (fin (fun _ => L (eval (lms ls) e o))) /\
      (forall n, leaf ls n -> M' (Val n) = M (Val n)) /\
      (forall k i, ~ In k (ids ls) -> k <> lid -> M' (Tmp k i) = M (Tmp k i)) /\
      (forall n idx, In n ns -> inb (vshape n) idx ->
         is_derive (fun t => L (eval (lms ls) (vary e n idx t) o)) (e n idx) (G' n idx - G n idx)) /\
      (forall n, ~ In n ns -> leaf ls n -> G' n = G n)).
Proof.
  intros Hsl Hv0 Hfw Hbw HZ Hid Hlid Hord Hnd Ho HU H0 HgL HLg HD HDo Hs Hk.
  set (m := lms ls) in *.
  assert (Hv : Forall (vjp vshape) m) by (unfold m; apply Forall_map; exact Hv0).
  assert (Hssa : ssa m) by (eapply ordered_ssa; eassumption).
  destruct HR as [Rl Rr]. rewrite pyseq_cons.
  eapply Rl; [apply (Hfw e ns M G s); assumption|].
  intros s2 _ (M2 & H2 & K2 & C2 & V2 & T2).
  rewrite pyseq_cons. eapply Rr; [apply (HLg (eval m e o) M2 G s2 H2)|].
  { assumption. } { apply K2. apply in_or_app. left. assumption. } { assumption. }
  intros s3 _ (M3 & G3 & H3 & Go & Gn & L3 & V3 & T3). cbv beta.
  assert (C3 : chain ls e M3).
  { apply (chain_kept ls e M2 M3 Hsl); [intros; apply V3| |assumption]. intros k i Hk'. apply T3. intros ->. contradiction. }
  eapply py_cons; [apply (Hbw e M3 G3 s3 HD H3 C3)|].
  { intros n Hn. destruct (HZ n Hn) as [Z1 Z2]. rewrite Gn by assumption. apply H0. assumption. }
  intros s4 (M4 & G4 & H4 & B4 & V4 & T4). cbv beta in *. apply py_nil.
  exists M4, G4. split; [assumption|]. split; [|split; [|split; [|split; [|split]]]].
  - intros n Hn. rewrite V4, V3. apply K2. assumption.
  - rewrite T4 by assumption. assumption.
  - intros n Hl. rewrite V4, V3, V2 by assumption. reflexivity.
  - intros k i Hk1 Hk'. rewrite T4, T3, T2 by assumption. reflexivity.
  - intros n idx Hn Hi.
    assert (Hl : ~ In n (outs m)) by (eapply ordered_fresh; eassumption).
    rewrite <- (Gn n) by (intros ->; contradiction).
    rewrite B4 by assumption.
    apply (back_gradient vshape (outs m ++ ns) m o D L dL e G3); try assumption.
    + apply ordered_NoDup; assumption.
    + intros k Hk'. apply wf_ps, wf_wft, UW, HU. apply in_app_or in Hk'. tauto.
    + intros k Hk'. apply in_or_app. left. assumption.
    + intros l j Hl' Hj. eapply ordered_inputs; eassumption.
    + intros k i Hk' Hko Hik. rewrite Gn by assumption. rewrite H0 by assumption. reflexivity.
    + apply in_or_app. right. assumption.
  - intros n Hn Hl. apply functional_extensionality. intros idx. rewrite B4 by assumption. rewrite back_other.
    + rewrite Gn by (intros ->; apply Hl; assumption). reflexivity.
    + intros l j Hl' Hj En. pose proof (ordered_inputs m ns Hord l j Hl' Hj) as Hin. rewrite En in Hin. apply in_app_or in Hin as [Hin|Hin]; contradiction.
Qed.
End Seg.
Arguments segment : clear implicits.
