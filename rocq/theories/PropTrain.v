(** * C51-C53: the SGD step, one batch of training, a whole training run *)
From Coq Require Import Reals Lra FunctionalExtensionality.
From Coquelicot Require Import Coquelicot.
From Verif Require Import Base Spec Geometry Traits TraitsProofs Runtime Ops RealOps TensorSem OneOut ElemOps Formulas PropDeriv Axis Sequence XReals NdRuns AnyRuns RSum MatOps PropElem PropElemR XTriples HasRuns TapeMath VjpMath Tape PyLayers PyLinear PySimple PyNorm Backprop Frob PropLayers PropModel PyTrain.
Local Close Scope Z_scope.
Local Open Scope R_scope.

Lemma then_assoc {T} (a b c : res (list (task T))) : then_ (then_ a b) c = then_ a (then_ b c).
Proof.
  unfold then_. destruct a as [a| |]; cbn [bind]; try reflexivity. destruct b as [b| |]; cbn [bind]; try reflexivity.
  destruct c as [c| |]; cbn [bind]; try reflexivity. rewrite app_assoc. reflexivity.
Qed.
Lemma last_cons {X} (a : X) l d : last (a :: l) d = last l a.
Proof. revert a d. induction l as [|b l IH]; intros a d; [reflexivity|]. change (last (a :: b :: l) d) with (last (b :: l) d). rewrite (IH b d), (IH b a). reflexivity. Qed.

Section Train.
Context {E : env} (req : nat -> bool).

(** ** C51: one step of the optimizer *)
Theorem C51_sgd_step lr mom wd damp nest it sid (ps ns : list nat) (V G B : nat -> arr) (s : store XR) :
  NoDup ps -> Forall (fun p => param_ok req sid p mom) ps -> allocated s ->
  (forall p, In p ps -> value s p (V p) /\ gradient s p (G p) /\ (0 < mom -> it <> 0%Z -> temp s sid p (B p))) ->
  (forall n, In n ns -> U (Val n) /\ value s n (V n)) ->
  runs_nd (sgd_step (Fin lr) (Fin mom) (Fin wd) (Fin damp) nest it (map (fun p => (node req p, A (Tmp sid p))) ps)) s (fun s' =>
    (forall p, In p ps -> value s' p (fun i => sgd_new lr mom wd damp nest it (V p i) (G p i) (B p i)) /\
       (0 < mom -> temp s' sid p (fun i => sgd_buf mom wd damp it (V p i) (G p i) (B p i)))) /\
    (forall n, In n ns -> ~ In n ps -> value s' n (V n))).
Proof.
  intros Hnd Hp [HK HS] Hv Hns. rewrite Forall_forall in Hp.
  assert (Hall :
    has (fun x => match x with
      | Val n => if in_dec Nat.eq_dec n (ps ++ ns) then Some (fin (V n)) else None
      | Grad n => if in_dec Nat.eq_dec n ps then Some (fin (G n)) else None
      | Tmp k n => if Nat.eq_dec k sid then if in_dec Nat.eq_dec n ps then if Rltb 0 mom then if (it =? 0)%Z then None else Some (fin (B n)) else None else None else None end) s).
  { split; [assumption|]. intros x Hx. split; [auto|]. intros f Hf. destruct x as [n|n|k n].
    - destruct (in_dec Nat.eq_dec n (ps ++ ns)) as [Hi|Hi]; [|discriminate]. inversion Hf; subst.
      apply in_app_or in Hi as [Hi|Hi]; [apply Hv|apply Hns]; assumption.
    - destruct (in_dec Nat.eq_dec n ps) as [Hi|Hi]; [inversion Hf; subst; apply Hv; assumption|discriminate].
    - destruct (Nat.eq_dec k sid) as [->|]; [|discriminate]. destruct (in_dec Nat.eq_dec n ps) as [Hi|Hi]; [|discriminate].
      destruct (Rltb 0 mom) eqn:Em; [|discriminate]. destruct (it =? 0)%Z eqn:Ei; [discriminate|]. inversion Hf; subst.
      apply (Hv n Hi); [apply Rltb_true; assumption|apply Z.eqb_neq; assumption]. }
  eapply nd_weaken.
  { eapply (sgd_step_has req lr mom wd damp nest it sid V G B ps); [apply Forall_forall; assumption|assumption|exact Hall|].
    intros p Hi. cbv beta iota. destruct (in_dec Nat.eq_dec p (ps ++ ns)) as [_|C]; [|exfalso; apply C, in_or_app; tauto].
    destruct (in_dec Nat.eq_dec p ps) as [_|]; [|contradiction]. destruct (Nat.eq_dec sid sid) as [_|]; [|congruence].
    split; [reflexivity|]. split; [reflexivity|]. intros H1 H2. apply Rltb_true in H1. rewrite H1. apply Z.eqb_neq in H2. rewrite H2. reflexivity. }
  intros s' _ [_ H']. split.
  - intros p Hi. destruct (Hp p Hi) as [[Uv _] _ HSt]. split.
    + apply (proj2 (H' (Val p) Uv)). cbn [sgd_all]. destruct (in_dec Nat.eq_dec p ps); [reflexivity|contradiction].
    + intros Hm. apply (proj2 (H' (Tmp sid p) (proj1 (HSt Hm)))). cbn [sgd_all]. destruct (Nat.eq_dec sid sid); [|congruence].
      destruct (in_dec Nat.eq_dec p ps); [|contradiction]. apply Rltb_true in Hm. rewrite Hm. reflexivity.
  - intros n Hi Hn. apply (proj2 (H' (Val n) (proj1 (Hns n Hi)))). cbn [sgd_all]. destruct (in_dec Nat.eq_dec n ps); [contradiction|].
    destruct (in_dec Nat.eq_dec n (ps ++ ns)) as [_|C]; [reflexivity|exfalso; apply C, in_or_app; tauto].
Qed.

(** ** The target is copied into the loss before it is computed *)
Lemma copied_loss RR (HR : run_kind RR) ids o lid did j Y M0 D L dL loss :
  U (Tmp did j) -> U (Tmp lid 1) -> same_tiling (A (Tmp did j)) (A (Tmp lid 1)) -> did <> lid -> ~ In did ids -> ~ In lid ids ->
  M0 (Tmp did j) = Some (fin Y) -> loss_good req RR ids o lid (upd (Tmp lid 1) (Some (fin Y)) M0) D L dL loss ->
  (forall r s (P Q : store XR -> Prop), RR r s P -> (forall s', P s' -> Q s') -> RR r s Q) ->
  loss_good req RR ids o lid M0 D L dL (then_ (copy_async (A (Tmp did j)) (A (Tmp lid 1))) loss).
Proof.
  intros U1 U2 Hs Hdl Hd Hl HY Hloss HW v M G s Hst HM Hv HD. destruct HR as [Rl _].
  apply (Rl _ _ s (st req (upd (Tmp lid 1) (Some (fin Y)) M) G)).
  { eapply nd_weaken; [apply (h_copy (ov req G M) s (Tmp did j) (Tmp lid 1) Y Y Hst); try assumption|].
    - congruence.
    - cbn [ov]. rewrite HM by assumption. assumption.
    - reflexivity.
    - intros s' _ H'. eapply has_sub; [exact H'|]. intros x f _. unfold upd, ov. destruct x as [n|n|k i]; try (destruct (gvar_dec _ (Tmp lid 1)) as [C|]; [discriminate C|]); auto. }
  intros s1 _ H1. eapply HW; [apply (Hloss v _ G s1 H1); try assumption|].
  - intros k i Hk. unfold upd. destruct (gvar_dec (Tmp k i) (Tmp lid 1)); [reflexivity|]. apply HM. assumption.
  - cbv beta. intros s' (M' & G' & H' & A1 & A2 & A3 & A4 & A5). exists M', G'. split; [assumption|]. split; [assumption|]. split; [assumption|].
    split; [assumption|]. split; [assumption|]. intros k i Hk. rewrite A5 by assumption. apply upd_ne. congruence.
Qed.

(** ** One batch *)
(** The leaves with the input [xi] replaced. *)
Definition with_input (e : nat -> arr) (xi : nat) (X : arr) : nat -> arr := fun n => if Nat.eq_dec n xi then X else e n.
(** 1/2 |model - target|^2 for one minibatch *)
Definition mb_loss (ls : list layer) (o xi : nat) (dat : nat -> arr) (e : nat -> arr) (mb : nat * nat) : R :=
  / 2 * Rsuml (all_idx (vshape o)) (fun idx =>
    (eval (map ly_m ls) (with_input e xi (dat (fst mb))) o idx - dat (snd mb) idx) * (eval (map ly_m ls) (with_input e xi (dat (fst mb))) o idx - dat (snd mb) idx)).
(** the sum over the minibatches of a batch *)
Definition batch_loss (ls : list layer) (o xi : nat) (dat : nat -> arr) (mbs : list (nat * nat)) (e : nat -> arr) : R :=
  Rsuml mbs (mb_loss ls o xi dat e).

(** A training set-up: a model with parameters [ps], input node [xi], minibatches given by the
    numbers of an input and of a target among the tensors of [did], the state of the optimizer
    in the tensors of [sids]. *)
Record setup_ok (ls : list layer) (acts ns ps : list nat) (o lid xi did : nat) (sids : list nat) (mbs : list (nat * nat)) : Prop := {
  su_model : model_ok req ls ns o lid;
  su_acts : incl (outs (map ly_m ls)) acts;
  su_grads : forall n, In n acts -> req n = true -> U (Grad n);
  su_loss : frob_ok req o lid;
  su_xi : In xi ns;
  su_ps : incl ps ns; su_nd : NoDup ps; su_pxi : ~ In xi ps; su_pacts : forall p, In p ps -> ~ In p acts;
  su_par : forall p, In p ps -> node_ok req p /\ req p = true;
  su_sep : did <> lid /\ ~ In did (map ly_id ls) /\ ~ In did sids;
  su_sids : forall k, In k sids -> k <> lid /\ ~ In k (map ly_id ls);
  su_data : forall i j, In (i, j) mbs -> U (Tmp did i) /\ U (Tmp did j) /\
    same_tiling (A (Tmp did i)) (A (Val xi)) /\ same_tiling (A (Tmp did j)) (A (Tmp lid 1))
}.

Section Batch.
Variables (ls : list layer) (acts ns : list nat) (o lid xi did : nat) (dat : nat -> arr) (e : nat -> arr).
Hypothesis Hmod : model_ok req ls ns o lid.
Hypothesis Hacts : incl (outs (map ly_m ls)) acts.
Hypothesis Hgr : forall n, In n acts -> req n = true -> U (Grad n).
Hypothesis Hfr : frob_ok req o lid.
Hypothesis Hxi : In xi ns.
Hypothesis Hdl : did <> lid.
Hypothesis Hdi : ~ In did (map ly_id ls).

Definition mb_tasks (mb : nat * nat) : res (list (task XR)) :=
  minibatch (map (node req) acts) (A (Val xi)) (A (Tmp lid 1)) (map ly_py ls)
    (frob_calc (node req o) (A (Tmp lid 1)) (A (Tmp lid 0)) (A (Tmp lid 2)) (A (Tmp lid 3))) (A (Tmp did (fst mb)), A (Tmp did (snd mb))).

Definition mid (M0 : smap) (M : smap) (G : nat -> arr) (s : store XR) : Prop :=
  has (known_out req acts M G) s /\ (forall n, In n ns -> n <> xi -> M (Val n) = Some (fin (e n))) /\
  (forall k i, k <> lid -> ~ In k (map ly_id ls) -> M (Tmp k i) = M0 (Tmp k i)).

Lemma vary_input (e0 : nat -> arr) n idx t X : n <> xi -> vary (with_input e0 xi X) n idx t = with_input (vary e0 n idx t) xi X.
Proof.
  intros Hn. apply functional_extensionality. intros m. unfold vary, with_input.
  destruct (Nat.eq_dec m n), (Nat.eq_dec m xi), (Nat.eq_dec n xi); subst; try congruence; reflexivity.
Qed.

Lemma minibatch_has M0 M G s i j : mid M0 M G s -> U (Tmp did i) -> U (Tmp did j) ->
  same_tiling (A (Tmp did i)) (A (Val xi)) -> same_tiling (A (Tmp did j)) (A (Tmp lid 1)) ->
  M0 (Tmp did i) = Some (fin (dat i)) -> M0 (Tmp did j) = Some (fin (dat j)) ->
  dom (map ly_m ls) (with_input e xi (dat i)) ->
  runs_nd (mb_tasks (i, j)) s (fun s' => exists M' G', mid M0 M' G' s' /\
    M' (Tmp lid 0) = Some (fin (fun _ => mb_loss ls o xi dat e (i, j))) /\
    (forall n idx, In n ns -> n <> xi -> ~ In n acts -> inb (vshape n) idx ->
       is_derive (fun t => mb_loss ls o xi dat (vary e n idx t) (i, j)) (e n idx) (G' n idx - G n idx))).
Proof.
  intros (HM & HV & HT) Ui Uj Si Sj Di Dj HD.
  destruct Hmod as [HL Hids Ho Hnd Hoo Hn]. inversion Hids as [|? ? Hlid Hids']; subst.
  unfold mb_tasks, minibatch. cbn [fst snd].
  assert (Uxi : U (Val xi)) by (apply (Hn xi), in_or_app; right; assumption).
  eapply py_cons; [apply (clear_st req acts _ G s HM Hgr)|]. intros s1 H1.
  eapply py_cons; [apply (h_copy _ s1 (Tmp did i) (Val xi) (dat i) (dat i) H1); try assumption; try discriminate; try reflexivity|].
  { cbn [ov]. rewrite HT by assumption. assumption. }
  intros s2 H2.
  assert (S2 : st req (upd (Val xi) (Some (fin (dat i))) M) (cleared acts G) s2).
  { eapply has_sub; [exact H2|]. intros x f _. unfold upd, ov. destruct x as [n|n|k i0]; try (destruct (gvar_dec _ (Val xi)) as [C|]; [discriminate C|]); auto. }
  clear H2.
  assert (Hw : forall r s (P Q : store XR -> Prop), runs_nd r s P -> (forall s', P s' -> Q s') -> runs_nd r s Q).
  { intros r s0 P Q HP HPQ. eapply nd_weaken; [exact HP|]. intros s' _. apply HPQ. }
  set (e1 := with_input e xi (dat i)).
  set (frob := frob_calc (node req o) (A (Tmp lid 1)) (A (Tmp lid 0)) (A (Tmp lid 2)) (A (Tmp lid 3))).
  assert (Epy : pyseq [model_forward (map ly_py ls); copy_async (A (Tmp did j)) (A (Tmp lid 1)); frob; model_backward (map ly_py ls)]
    = pyseq [model_forward (map ly_py ls); then_ (copy_async (A (Tmp did j)) (A (Tmp lid 1))) frob; model_backward (map ly_py ls)]).
  { rewrite !pyseq_cons, then_assoc. reflexivity. }
  rewrite Epy.
  eapply Hw.
  - apply (core_st req runs_nd kind_nd ls ns o lid (fun _ => True) (frob_L (vshape o) (dat j)) (frob_dL (dat j)) _ e1
      (upd (Val xi) (Some (fin (dat i))) M) (cleared acts G) s2); try assumption.
    + intros n Hin. apply (Hn n). apply in_or_app. tauto.
    + intros n Hin. unfold cleared. destruct (in_dec Nat.eq_dec n acts) as [|C]; [reflexivity|]. exfalso. apply C, Hacts. assumption.
    + apply frob_gradient. apply wf_ps, wf_wft, UW. apply (fr_o _ _ _ Hfr).
    + apply (copied_loss runs_nd kind_nd (map ly_id ls) o lid did j (dat j)); try assumption.
      * apply (fr_U _ _ _ Hfr). lia.
      * rewrite upd_ne by discriminate. rewrite HT by assumption. assumption.
      * apply frob_good; [assumption|assumption|]. apply upd_eq.
    + exact I.
    + intros n Hin. unfold upd, e1, with_input. destruct (gvar_dec (Val n) (Val xi)) as [En|En].
      * inversion En; subst. destruct (Nat.eq_dec xi xi); [reflexivity|congruence].
      * destruct (Nat.eq_dec n xi) as [->|]; [congruence|]. apply HV; assumption.
  - cbv beta. intros s' (M' & G' & S' & K' & L' & V' & T' & B' & O').
    assert (Hleaf : forall n, In n ns -> leaf ls n) by (intros n Hin; eapply ordered_fresh; eassumption).
    exists M', G'. split; [split; [|split]|split].
    + eapply has_sub; [exact S'|]. intros [n|n|k i0] f _ Hf; cbn [ov known_out] in *; try assumption. destruct (in_dec Nat.eq_dec n acts); [discriminate|assumption].
    + intros n Hin Hx. rewrite V' by (apply Hleaf; assumption). rewrite upd_ne by congruence. apply HV; assumption.
    + intros k i0 Hk Hk'. rewrite T' by assumption. rewrite upd_ne by discriminate. apply HT; assumption.
    + exact L'.
    + intros n idx Hin Hx Ha Hi. specialize (B' n idx Hin Hi). unfold cleared in B'. destruct (in_dec Nat.eq_dec n acts); [contradiction|].
      assert (E1 : e1 n = e n) by (unfold e1, with_input; destruct (Nat.eq_dec n xi); [contradiction|reflexivity]).
      rewrite E1 in B'. eapply is_derive_ext; [|exact B']. intros t. cbv beta. unfold e1. rewrite vary_input by assumption. reflexivity.
Qed.

Lemma minibatches_has M0 mbs : (forall i j, In (i, j) mbs -> U (Tmp did i) /\ U (Tmp did j) /\
    same_tiling (A (Tmp did i)) (A (Val xi)) /\ same_tiling (A (Tmp did j)) (A (Tmp lid 1)) /\
    M0 (Tmp did i) = Some (fin (dat i)) /\ M0 (Tmp did j) = Some (fin (dat j)) /\ dom (map ly_m ls) (with_input e xi (dat i))) ->
  forall l0 M G s opt Q, mid M0 M G s -> M (Tmp lid 0) = Some (fin (fun _ => l0)) ->
  (forall s' M' G', mid M0 M' G' s' -> M' (Tmp lid 0) = Some (fin (fun _ => last (map (mb_loss ls o xi dat e) mbs) l0)) ->
     (forall n idx, In n ns -> n <> xi -> ~ In n acts -> inb (vshape n) idx ->
       is_derive (fun t => batch_loss ls o xi dat mbs (vary e n idx t)) (e n idx) (G' n idx - G n idx)) ->
     runs_nd opt s' Q) ->
  runs_nd (pyseq (map mb_tasks mbs ++ [opt])) s Q.
Proof.
  induction mbs as [|[i j] mbs IH]; intros Hd l0 M G s opt Q HM H0 Hopt.
  - cbn [map app]. rewrite pyseq_1. apply (Hopt s M G HM H0). intros n idx _ _ _ _.
    unfold batch_loss. cbn [Rsuml fold_right map]. replace (G n idx - G n idx) with 0 by ring. apply (is_derive_const (K := R_AbsRing) (V := R_NormedModule)).
  - cbn [map app]. destruct (Hd i j (or_introl eq_refl)) as (D1 & D2 & D3 & D4 & D5 & D6 & D7).
    eapply py_cons; [apply (minibatch_has M0 M G s i j); assumption|].
    intros s1 (M1 & G1 & H1 & L1 & B1).
    apply (IH (fun i' j' Hin => Hd i' j' (or_intror Hin)) (mb_loss ls o xi dat e (i, j)) M1 G1 s1 opt Q H1 L1).
    intros s' M' G' H' L' B'. apply (Hopt s' M' G' H').
    + cbn [map]. rewrite last_cons. assumption.
    + intros n idx I1 I2 I3 I4. specialize (B1 n idx I1 I2 I3 I4). specialize (B' n idx I1 I2 I3 I4).
      replace (G' n idx - G n idx) with (plus (G1 n idx - G n idx) (G' n idx - G1 n idx)) by (unfold plus; cbn; ring).
      apply (is_derive_plus (K := R_AbsRing) (V := R_NormedModule) _ _ _ _ _ B1 B').
Qed.
End Batch.

(** ** One batch, with any optimizer *)
Section Opt.
(** An optimizer of the parameters [ps]: the tasks of its step, its state, the contents of its
    tensors in a state, the new values of the parameters and the next state given the gradient. *)
Variables (ps sids : list nat) (St : Type) (opt : Z -> res (list (task XR))) (known : Z -> St -> nat -> nat -> option arr) (inv : Z -> St -> Prop)
  (new : Z -> St -> (nat -> arr) -> (nat -> arr) -> nat -> arr) (next : Z -> St -> (nat -> arr) -> (nat -> arr) -> St).
Record opt_good : Prop := {
  og_sids : forall it S k i f, known it S k i = Some f -> In k sids /\ U (Tmp k i);
  og_inv : forall it S e G, inv it S -> inv (it + 1)%Z (next it S e G);
  og_step : forall it S M s e G, inv it S -> has M s -> (forall p, In p ps -> M (Val p) = Some (fin (e p)) /\ M (Grad p) = Some (fin (G p))) ->
    (forall k i f, known it S k i = Some f -> M (Tmp k i) = Some (fin f)) ->
    runs_nd (opt it) s (fun s' => exists M', has M' s' /\
      (forall p, In p ps -> M' (Val p) = Some (fin (new it S e G p))) /\
      (forall n, ~ In n ps -> M' (Val n) = M (Val n) /\ M' (Grad n) = M (Grad n)) /\
      (forall k i, ~ In k sids -> M' (Tmp k i) = M (Tmp k i)) /\
      (forall k i f, known (it + 1)%Z (next it S e G) k i = Some f -> M' (Tmp k i) = Some (fin f)))
}.
(** One step on the function [loss] of the leaves. *)
Definition opt_update (it : Z) (loss : (nat -> arr) -> R) (S : St) (e : nat -> arr) (S' : St) (e' : nat -> arr) : Prop :=
  exists g : nat -> arr,
    (forall p idx, In p ps -> inb (vshape p) idx -> is_derive (fun t => loss (vary e p idx t)) (e p idx) (g p idx)) /\
    (forall p, In p ps -> e' p = new it S e g p) /\ (forall n, ~ In n ps -> e' n = e n) /\ S' = next it S e g.
(** The state between batches. *)
Record opt_ready (acts ns : list nat) (xi did : nat) (data : list (nat * nat)) (dat : nat -> arr) (it : Z) (e : nat -> arr) (S : St) (s : store XR) : Prop := {
  or_alloc : allocated s;
  or_val : forall n, In n ns -> n <> xi -> value s n (e n);
  or_state : forall k i f, known it S k i = Some f -> temp s k i f;
  or_inv : inv it S;
  or_data : forall i j, In (i, j) data -> temp s did i (dat i) /\ temp s did j (dat j);
  or_grad : exists G, forall n, U (Grad n) -> req n = true -> ~ In n acts -> ~ In n ps -> gradient s n (G n)
}.
(** pipeline.py:50-71 with the Frobenius loss *)
Definition opt_batch (ls : list layer) (acts : list nat) (o lid xi did : nat) (it : Z) (mbs : list (nat * nat)) : res (list (task XR)) :=
  train_batch (map (node req) ps) (map (node req) acts) (A (Tmp lid 0)) (A (Val xi)) (A (Tmp lid 1)) (map ly_py ls)
    (frob_calc (node req o) (A (Tmp lid 1)) (A (Tmp lid 0)) (A (Tmp lid 2)) (A (Tmp lid 3)))
    (map (fun mb => (A (Tmp did (fst mb)), A (Tmp did (snd mb)))) mbs) (opt it).

Theorem train_batch_any ls acts ns o lid xi did data dat it mbs e S s : opt_good ->
  setup_ok ls acts ns ps o lid xi did sids data -> incl mbs data ->
  (forall i j, In (i, j) mbs -> dom (map ly_m ls) (with_input e xi (dat i))) ->
  opt_ready acts ns xi did data dat it e S s ->
  runs_nd (opt_batch ls acts o lid xi did it mbs) s (fun s' => exists e' S',
    opt_update it (batch_loss ls o xi dat mbs) S e S' e' /\
    opt_ready acts ns xi did data dat (it + 1) e' S' s' /\
    temp s' lid 0 (fun _ => last (map (mb_loss ls o xi dat e) mbs) 0)).
Proof.
  intros [Og Oi Os] [Tm Ta Tg Tl Tx Tp Tn Tpx Tpa Tpar (Td & Tdi & Tds) Tsi Tdat] Hincl HD [[HK HS] RV RB RI RD [G RG]].
  assert (Unode : forall n, In n ns -> U (Val n)) by (intros n Hin; apply (mo_nodes _ _ _ _ _ Tm n), in_or_app; tauto).
  assert (Ul : U (Tmp lid 0)) by (apply (fr_U _ _ _ Tl); lia).
  (* what is known at the start *)
  set (indata := fun i => existsb (fun q => orb (Nat.eqb (fst q) i) (Nat.eqb (snd q) i)) data).
  assert (Hin : forall i, indata i = true -> temp s did i (dat i)).
  { intros i Hi. apply existsb_exists in Hi as ([a b] & I1 & I2). cbn [fst snd] in I2. destruct (RD a b I1) as [R1 R2].
    apply Bool.orb_true_iff in I2 as [I2|I2]; apply Nat.eqb_eq in I2; subst; assumption. }
  assert (Hin2 : forall i j, In (i, j) data -> indata i = true /\ indata j = true).
  { intros i j Hi. split; apply existsb_exists; exists (i, j); (split; [assumption|]); cbn [fst snd]; rewrite Nat.eqb_refl, ?Bool.orb_true_r; reflexivity. }
  set (M0 := fun x : gvar => match x with
    | Val n => if in_dec Nat.eq_dec n ns then if Nat.eq_dec n xi then None else Some (fin (e n)) else None
    | Grad n => None
    | Tmp k n => if Nat.eq_dec k did then if indata n then Some (fin (dat n)) else None
        else match known it S k n with Some f => Some (fin f) | None => None end end).
  assert (HM0 : has (known_out req (ps ++ acts) M0 G) s).
  { split; [assumption|]. intros x Hx. split; [auto|]. intros f Hf. destruct x as [n|n|k n]; cbn [known_out M0] in Hf.
    - destruct (in_dec Nat.eq_dec n ns) as [Hi|]; [|discriminate]. destruct (Nat.eq_dec n xi); [discriminate|]. inversion Hf; subst. apply RV; assumption.
    - destruct (in_dec Nat.eq_dec n (ps ++ acts)) as [|Hi]; [discriminate|]. destruct (req n) eqn:Er; [|discriminate]. inversion Hf; subst.
      apply RG; try assumption; intros C; apply Hi, in_or_app; tauto.
    - destruct (Nat.eq_dec k did) as [->|]; [destruct (indata n) eqn:Ei; [|discriminate]; inversion Hf; subst; apply Hin; assumption|].
      destruct (known it S k n) as [f'|] eqn:Ek; [|discriminate]. inversion Hf; subst. apply (RB k n f' Ek). }
  unfold opt_batch, train_batch. cbn [app].
  (* zero the gradients of the parameters *)
  eapply py_cons.
  { apply (clear_tape req ps _ s HM0). intros p Hp Hr. destruct (Tpar p Hp) as [[_ Hg] _]. apply Hg. assumption. }
  intros s1 H1.
  assert (S1 : has (known_out req acts M0 (cleared ps G)) s1).
  { eapply has_sub; [exact H1|]. intros [n|n|k i] f _ Hf; cbn [known_out] in *; try assumption.
    destruct (in_dec Nat.eq_dec n acts); [discriminate|]. unfold cleared in Hf. destruct (in_dec Nat.eq_dec n ps) as [|Np].
    - destruct (req n); [assumption|discriminate].
    - destruct (in_dec Nat.eq_dec n (ps ++ acts)) as [C|]; [exfalso; apply in_app_or in C; tauto|assumption]. }
  clear H1.
  eapply py_cons; [apply (h_clear _ s1 (Tmp lid 0) (fun _ => 0) S1 Ul); reflexivity|].
  intros s2 H2.
  set (M1 := upd (Tmp lid 0) (Some (fin (fun _ => 0))) M0).
  assert (S2 : mid ls acts ns lid xi e M0 M1 (cleared ps G) s2).
  { split; [|split].
    - eapply has_sub; [exact H2|]. unfold M1. intros [n|n|k i] f _; unfold upd; cbn [known_out]; intros Hf; exact Hf.
    - intros n Hn Hx. unfold M1. rewrite upd_ne by discriminate. cbn [M0]. destruct (in_dec Nat.eq_dec n ns); [|contradiction]. destruct (Nat.eq_dec n xi); [contradiction|reflexivity].
    - intros k i Hk _. unfold M1. rewrite upd_ne by congruence. reflexivity. }
  clear H2. rewrite map_map.
  match goal with |- runs_nd (pyseq (?l ++ _)) _ _ => change l with (map (mb_tasks ls acts o lid xi did) mbs) end.
  eapply (minibatches_has ls acts ns o lid xi did dat e Tm Ta Tg Tl Tx Td Tdi M0 mbs); [|exact S2|unfold M1; apply upd_eq|].
  { intros i j Hi. destruct (Tdat i j (Hincl _ Hi)) as (D1 & D2 & D3 & D4). destruct (Hin2 i j (Hincl _ Hi)) as [I1 I2].
    assert (Ed : forall q, indata q = true -> M0 (Tmp did q) = Some (fin (dat q))).
    { intros q Hq. cbn [M0]. destruct (Nat.eq_dec did did); [|congruence]. rewrite Hq. reflexivity. }
    repeat (split; [first [assumption|apply Ed; assumption]|]). apply (HD i j Hi). }
  intros s3 M3 G3 (H3 & V3 & T3) L3 B3.
  eapply nd_weaken.
  { apply (Os it S _ s3 e G3 RI H3).
    - intros p Hp. destruct (Tpar p Hp) as [_ Hr]. cbn [known_out]. split.
      + apply V3; [apply Tp; assumption|]. intros ->. contradiction.
      + destruct (in_dec Nat.eq_dec p acts) as [C|]; [exfalso; exact (Tpa p Hp C)|]. rewrite Hr. reflexivity.
    - intros k i f Hk. cbn [known_out]. destruct (Og _ _ _ _ _ Hk) as [Ik Uk]. destruct (Tsi k Ik) as [Hkl Hkd].
      rewrite T3 by assumption. cbn [M0]. destruct (Nat.eq_dec k did) as [->|]; [contradiction|]. rewrite Hk. reflexivity. }
  intros s4 _ (M4 & [K4 H4] & Q1 & Q2 & Q3 & Q4).
  exists (fun n => if in_dec Nat.eq_dec n ps then new it S e G3 n else e n), (next it S e G3).
  split; [|split].
  - exists G3. split; [|split; [|split]].
    + intros p idx Hp Hi. assert (Hg : cleared ps G p idx = 0) by (unfold cleared; destruct (in_dec Nat.eq_dec p ps); [reflexivity|contradiction]).
      replace (G3 p idx) with (G3 p idx - cleared ps G p idx) by (rewrite Hg; ring).
      apply (B3 p idx); try assumption; [apply Tp; assumption|intros ->; contradiction|apply Tpa; assumption].
    + intros p Hp. destruct (in_dec Nat.eq_dec p ps); [|contradiction]. reflexivity.
    + intros n Hn. destruct (in_dec Nat.eq_dec n ps); [contradiction|reflexivity].
    + reflexivity.
  - split.
    + split; [assumption|]. intros x Hx. apply (H4 x Hx).
    + intros n Hn Hx. apply (proj2 (H4 (Val n) (Unode n Hn))). destruct (in_dec Nat.eq_dec n ps) as [Hi|Hi]; [apply Q1; assumption|].
      rewrite (proj1 (Q2 n Hi)). cbn [known_out]. apply V3; assumption.
    + intros k i f Hk. destruct (Og _ _ _ _ _ Hk) as [_ Uk]. apply (proj2 (H4 (Tmp k i) Uk)). apply Q4. assumption.
    + apply Oi. assumption.
    + assert (Hd : forall q, U (Tmp did q) -> indata q = true -> temp s4 did q (dat q)).
      { intros q Uq Hq. apply (proj2 (H4 (Tmp did q) Uq)). rewrite Q3 by assumption. cbn [known_out]. rewrite T3 by assumption.
        cbn [M0]. destruct (Nat.eq_dec did did); [|congruence]. rewrite Hq. reflexivity. }
      intros i j Hi. destruct (Tdat i j Hi) as (D1 & D2 & _). destruct (Hin2 i j Hi) as [I1 I2]. split; apply Hd; assumption.
    + exists G3. intros n Hu Hr Ha Hp. apply (proj2 (H4 (Grad n) Hu)). rewrite (proj2 (Q2 n Hp)). cbn [known_out].
      destruct (in_dec Nat.eq_dec n acts); [contradiction|]. rewrite Hr. reflexivity.
  - apply (proj2 (H4 (Tmp lid 0) Ul)). rewrite Q3; [exact L3|]. intros C. destruct (Tsi lid C). congruence.
Qed.

(** *** Many batches *)
Fixpoint opt_tasks (ls : list layer) (acts : list nat) (o lid xi did : nat) (it : Z) (batches : list (list (nat * nat))) : res (list (task XR)) :=
  match batches with
  | [] => Ok []
  | mbs :: rest => then_ (opt_batch ls acts o lid xi did it mbs) (opt_tasks ls acts o lid xi did (it + 1) rest)
  end.
Fixpoint opt_run (ls : list layer) (o xi : nat) (dat : nat -> arr) (it : Z) (batches : list (list (nat * nat))) (S : St) (e : nat -> arr) (S' : St) (e' : nat -> arr) : Prop :=
  match batches with
  | [] => e' = e /\ S' = S
  | mbs :: rest => exists e1 S1, opt_update it (batch_loss ls o xi dat mbs) S e S1 e1 /\ opt_run ls o xi dat (it + 1) rest S1 e1 S' e'
  end.
Theorem training_any ls acts ns o lid xi did data dat batches it e S s : opt_good ->
  setup_ok ls acts ns ps o lid xi did sids data -> (forall mbs, In mbs batches -> incl mbs data) ->
  (forall done mbs rest e1 S1 i j, batches = done ++ mbs :: rest -> opt_run ls o xi dat it done S e S1 e1 ->
     In (i, j) mbs -> dom (map ly_m ls) (with_input e1 xi (dat i))) ->
  opt_ready acts ns xi did data dat it e S s ->
  runs_nd (opt_tasks ls acts o lid xi did it batches) s (fun s' => exists e' S',
    opt_run ls o xi dat it batches S e S' e' /\ opt_ready acts ns xi did data dat (it + zlen batches) e' S' s').
Proof.
  intros HO HT. revert it e S s. induction batches as [|mbs rest IH]; intros it e S s Hi Hs Hr.
  - cbn [opt_tasks]. apply nd_nop. exists e, S. split; [split; reflexivity|]. change (zlen []) with 0%Z. rewrite Z.add_0_r. assumption.
  - cbn [opt_tasks]. eapply nd_then.
    + apply (train_batch_any ls acts ns o lid xi did data dat it mbs e S s HO HT); [apply Hi; left; reflexivity| |assumption].
      intros i j Hij. apply (Hs [] mbs rest e S i j); [reflexivity|split; reflexivity|assumption].
    + intros s1 _ (e1 & S1 & U1 & R1 & _). eapply nd_weaken.
      * apply (IH (it + 1)%Z e1 S1 s1); [intros; apply Hi; right; assumption| |assumption].
        intros done mbs' rest' e2 S2 i j Eq Hrun. apply (Hs (mbs :: done) mbs' rest' e2 S2 i j); [rewrite Eq; reflexivity|]. exists e1, S1. split; assumption.
      * intros s2 _ (e2 & S2 & A1 & A2). exists e2, S2. split; [exists e1, S1; split; assumption|].
        replace (it + zlen (mbs :: rest))%Z with (it + 1 + zlen rest)%Z; [assumption|]. unfold zlen. cbn [List.length]. lia.
Qed.
End Opt.

(** ** C52: one batch with the Frobenius loss and SGD *)
(** A training set-up whose optimizer keeps its momentum buffers in the tensors of [sid]. *)
Definition train_ok (ls : list layer) (acts ns ps : list nat) (o lid xi did sid : nat) (mom : R) (mbs : list (nat * nat)) : Prop :=
  setup_ok ls acts ns ps o lid xi did [sid] mbs /\ Forall (fun p => param_ok req sid p mom) ps.

Section Sgd.
Variables (lr mom wd damp : R) (nest : bool).
(** One step of SGD on the function [loss] of the leaves: with g its gradient in the parameters,
    every parameter and its momentum buffer is updated, other leaves stay. *)
Definition sgd_update (ps : list nat) (it : Z) (loss : (nat -> arr) -> R) (e B e' B' : nat -> arr) : Prop :=
  exists g : nat -> arr,
    (forall p idx, In p ps -> inb (vshape p) idx -> is_derive (fun t => loss (vary e p idx t)) (e p idx) (g p idx)) /\
    (forall p, In p ps -> e' p = (fun i => sgd_new lr mom wd damp nest it (e p i) (g p i) (B p i)) /\
                          B' p = (fun i => sgd_buf mom wd damp it (e p i) (g p i) (B p i))) /\
    (forall n, ~ In n ps -> e' n = e n).

(** The state between batches: leaves other than the input hold [e], momentum buffers [B] (from
    the second step on), the data [dat]; gradients that are never cleared hold finite numbers. *)
Record ready (acts ns ps : list nat) (xi did sid : nat) (data : list (nat * nat)) (dat : nat -> arr) (it : Z) (e B : nat -> arr) (s : store XR) : Prop := {
  rd_alloc : allocated s;
  rd_val : forall n, In n ns -> n <> xi -> value s n (e n);
  rd_buf : 0 < mom -> it <> 0%Z -> forall p, In p ps -> temp s sid p (B p);
  rd_data : forall i j, In (i, j) data -> temp s did i (dat i) /\ temp s did j (dat j);
  rd_grad : exists G, forall n, U (Grad n) -> req n = true -> ~ In n acts -> ~ In n ps -> gradient s n (G n)
}.

Definition batch_tasks (ls : list layer) (acts ps : list nat) (o lid xi did sid : nat) (it : Z) (mbs : list (nat * nat)) : res (list (task XR)) :=
  train_batch (map (node req) ps) (map (node req) acts) (A (Tmp lid 0)) (A (Val xi)) (A (Tmp lid 1)) (map ly_py ls)
    (frob_calc (node req o) (A (Tmp lid 1)) (A (Tmp lid 0)) (A (Tmp lid 2)) (A (Tmp lid 3)))
    (map (fun mb => (A (Tmp did (fst mb)), A (Tmp did (snd mb)))) mbs)
    (sgd_step (Fin lr) (Fin mom) (Fin wd) (Fin damp) nest it (map (fun p => (node req p, A (Tmp sid p))) ps)).

(** SGD as an optimizer in the sense of the section above *)
Definition sgd_known (ps : list nat) (sid : nat) (it : Z) (B : nat -> arr) (k i : nat) : option arr :=
  if Nat.eq_dec k sid then if in_dec Nat.eq_dec i ps then if Rltb 0 mom then if (it =? 0)%Z then None else Some (B i) else None else None else None.
Lemma sgd_opt_good ps sid : NoDup ps -> Forall (fun p => param_ok req sid p mom) ps ->
  opt_good ps [sid] (nat -> arr) (fun it => sgd_step (Fin lr) (Fin mom) (Fin wd) (Fin damp) nest it (map (fun p => (node req p, A (Tmp sid p))) ps))
    (sgd_known ps sid) (fun _ _ => True) (fun it B e G n i => sgd_new lr mom wd damp nest it (e n i) (G n i) (B n i))
    (fun it B e G n i => sgd_buf mom wd damp it (e n i) (G n i) (B n i)).
Proof.
  intros Hnd Hp. split.
  - intros it B k i f. unfold sgd_known. destruct (Nat.eq_dec k sid) as [->|]; [|discriminate]. destruct (in_dec Nat.eq_dec i ps) as [Hi|]; [|discriminate].
    destruct (Rltb 0 mom) eqn:Em; [|discriminate]. intros _. split; [left; reflexivity|]. rewrite Forall_forall in Hp. destruct (Hp i Hi) as [_ _ HS].
    apply Rltb_true in Em. apply (HS Em).
  - auto.
  - intros it B M s e G _ HM Hv Hk. eapply nd_weaken.
    { apply (sgd_step_has req lr mom wd damp nest it sid e G B ps M s Hp Hnd HM). intros p Hi. destruct (Hv p Hi) as [E1 E2].
      split; [assumption|]. split; [assumption|]. intros H1 H2. apply Hk. unfold sgd_known. destruct (Nat.eq_dec sid sid); [|congruence].
      destruct (in_dec Nat.eq_dec p ps); [|contradiction]. apply Rltb_true in H1. rewrite H1. apply Z.eqb_neq in H2. rewrite H2. reflexivity. }
    intros s' _ H'. eexists. split; [exact H'|]. split; [|split; [|split]].
    + intros p Hi. cbn [sgd_all]. destruct (in_dec Nat.eq_dec p ps); [reflexivity|contradiction].
    + intros n Hn. cbn [sgd_all]. destruct (in_dec Nat.eq_dec n ps); [contradiction|split; reflexivity].
    + intros k i Hki. cbn [sgd_all]. destruct (Nat.eq_dec k sid) as [->|]; [|reflexivity]. exfalso. apply Hki. left. reflexivity.
    + intros k i f. unfold sgd_known. cbn [sgd_all]. destruct (Nat.eq_dec k sid); [|discriminate]. destruct (in_dec Nat.eq_dec i ps); [|discriminate].
      destruct (Rltb 0 mom); [|discriminate]. destruct (it + 1 =? 0)%Z; [discriminate|]. intros Hf. inversion Hf; subst. reflexivity.
Qed.
Lemma sgd_ready acts ns ps xi did sid data dat it e B s : ready acts ns ps xi did sid data dat it e B s ->
  opt_ready ps (nat -> arr) (sgd_known ps sid) (fun _ _ => True) acts ns xi did data dat it e B s.
Proof.
  intros [R1 R2 R3 R4 R5]. split; try assumption; [|exact I]. intros k i f. unfold sgd_known. destruct (Nat.eq_dec k sid) as [->|]; [|discriminate].
  destruct (in_dec Nat.eq_dec i ps) as [Hi|]; [|discriminate]. destruct (Rltb 0 mom) eqn:Em; [|discriminate]. destruct (it =? 0)%Z eqn:Ei; [discriminate|].
  intros Hf. inversion Hf; subst. apply R3; [apply Rltb_true; assumption|apply Z.eqb_neq; assumption|assumption].
Qed.
Lemma sgd_ready' acts ns ps xi did sid data dat it e B s :
  opt_ready ps (nat -> arr) (sgd_known ps sid) (fun _ _ => True) acts ns xi did data dat it e B s -> ready acts ns ps xi did sid data dat it e B s.
Proof.
  intros [R1 R2 R3 _ R4 R5]. split; try assumption. intros Hm Hi p Hp. apply R3. unfold sgd_known. destruct (Nat.eq_dec sid sid); [|congruence].
  destruct (in_dec Nat.eq_dec p ps); [|contradiction]. apply Rltb_true in Hm. rewrite Hm. apply Z.eqb_neq in Hi. rewrite Hi. reflexivity.
Qed.
Lemma sgd_update_opt ps it loss B e B' e' :
  opt_update ps (nat -> arr) (fun it B e G n i => sgd_new lr mom wd damp nest it (e n i) (G n i) (B n i))
    (fun it B e G n i => sgd_buf mom wd damp it (e n i) (G n i) (B n i)) it loss B e B' e' -> sgd_update ps it loss e B e' B'.
Proof.
  intros (g & H1 & H2 & H3 & H4). exists g. split; [assumption|]. split; [|assumption]. intros p Hp. split; [apply H2; assumption|]. rewrite H4. reflexivity.
Qed.

Theorem C52_train_batch ls acts ns ps o lid xi did sid data dat it mbs e B s :
  train_ok ls acts ns ps o lid xi did sid mom data -> incl mbs data ->
  (forall i j, In (i, j) mbs -> dom (map ly_m ls) (with_input e xi (dat i))) ->
  ready acts ns ps xi did sid data dat it e B s ->
  runs_nd (batch_tasks ls acts ps o lid xi did sid it mbs) s (fun s' => exists e' B',
    sgd_update ps it (batch_loss ls o xi dat mbs) e B e' B' /\
    ready acts ns ps xi did sid data dat (it + 1) e' B' s' /\
    temp s' lid 0 (fun _ => last (map (mb_loss ls o xi dat e) mbs) 0)).
Proof.
  intros [HT Hp] Hincl HD HR. eapply nd_weaken.
  { apply (train_batch_any ps [sid] _ _ _ _ _ _ ls acts ns o lid xi did data dat it mbs e B s (sgd_opt_good ps sid (su_nd _ _ _ _ _ _ _ _ _ _ HT) Hp) HT Hincl HD (sgd_ready _ _ _ _ _ _ _ _ _ _ _ _ HR)). }
  intros s' _ (e' & B' & H1 & H2 & H3). exists e', B'. split; [apply sgd_update_opt; assumption|]. split; [apply sgd_ready'; assumption|assumption].
Qed.

(** ** C53: the whole run.  [batches]: the batches of all epochs in order *)
Fixpoint run_tasks (ls : list layer) (acts ps : list nat) (o lid xi did sid : nat) (it : Z) (batches : list (list (nat * nat))) : res (list (task XR)) :=
  match batches with
  | [] => Ok []
  | mbs :: rest => then_ (batch_tasks ls acts ps o lid xi did sid it mbs) (run_tasks ls acts ps o lid xi did sid (it + 1) rest)
  end.
(** The iterates of SGD. *)
Fixpoint sgd_run (ls : list layer) (ps : list nat) (o xi : nat) (dat : nat -> arr) (it : Z) (batches : list (list (nat * nat))) (e B e' B' : nat -> arr) : Prop :=
  match batches with
  | [] => e' = e /\ B' = B
  | mbs :: rest => exists e1 B1, sgd_update ps it (batch_loss ls o xi dat mbs) e B e1 B1 /\ sgd_run ls ps o xi dat (it + 1) rest e1 B1 e' B'
  end.
(** The model is differentiable at every iterate. *)
Definition smooth_run (ls : list layer) (ps : list nat) (o xi : nat) (dat : nat -> arr) (it : Z) (batches : list (list (nat * nat))) (e B : nat -> arr) : Prop :=
  forall done mbs rest e1 B1 i j, batches = done ++ mbs :: rest -> sgd_run ls ps o xi dat it done e B e1 B1 ->
    In (i, j) mbs -> dom (map ly_m ls) (with_input e1 xi (dat i)).

Theorem C53_training ls acts ns ps o lid xi did sid data dat batches it e B s :
  train_ok ls acts ns ps o lid xi did sid mom data -> (forall mbs, In mbs batches -> incl mbs data) ->
  smooth_run ls ps o xi dat it batches e B -> ready acts ns ps xi did sid data dat it e B s ->
  runs_nd (run_tasks ls acts ps o lid xi did sid it batches) s (fun s' => exists e' B',
    sgd_run ls ps o xi dat it batches e B e' B' /\
    (forall n, In n ns -> n <> xi -> value s' n (e' n)) /\
    ready acts ns ps xi did sid data dat (it + zlen batches) e' B' s').
Proof.
  intros HT. revert it e B s. induction batches as [|mbs rest IH]; intros it e B s Hi Hs Hr.
  - cbn [run_tasks]. apply nd_nop. exists e, B. split; [split; reflexivity|]. split; [apply Hr|]. change (zlen []) with 0%Z. rewrite Z.add_0_r. assumption.
  - cbn [run_tasks]. eapply nd_then.
    + apply (C52_train_batch ls acts ns ps o lid xi did sid data dat it mbs e B s HT); [apply Hi; left; reflexivity| |assumption].
      intros i j Hij. apply (Hs [] mbs rest e B i j); [reflexivity|split; reflexivity|assumption].
    + intros s1 _ (e1 & B1 & U1 & R1 & _). eapply nd_weaken.
      * apply (IH (it + 1)%Z e1 B1 s1); [intros; apply Hi; right; assumption| |assumption].
        intros done mbs' rest' e2 B2 i j Eq Hrun. apply (Hs (mbs :: done) mbs' rest' e2 B2 i j); [rewrite Eq; reflexivity|]. exists e1, B1. split; assumption.
      * intros s2 _ (e2 & B2 & A1 & A2 & A3). exists e2, B2. split; [exists e1, B1; split; assumption|]. split; [assumption|].
        replace (it + zlen (mbs :: rest))%Z with (it + 1 + zlen rest)%Z; [assumption|]. unfold zlen. cbn [List.length]. lia.
Qed.
End Sgd.
End Train.
