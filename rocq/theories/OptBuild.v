(** * Constructors of the optimizers, and optimizers by name *)
From Coq Require Import Reals Lra FunctionalExtensionality.
From Coquelicot Require Import Coquelicot.
From Verif Require Import Base Spec Geometry Traits TraitsProofs Runtime Ops RealOps TensorSem OneOut ElemOps Formulas Axis Sequence XReals NdRuns AnyRuns RSum MatOps PropElem XTriples HasRuns TapeMath VjpMath Tape PyLayers PyLinear Backprop PropLayers PropModel PyTrain PropTrain PyAdam PropAdam PyModels BuildEnv BuildModel.
Local Close Scope R_scope.
Local Open Scope list_scope.
Local Open Scope Z_scope.

(** ** Model *)
(** adam.py:34-46, 164-171, adamw.py:31-38, sgd.py:39-44: for every parameter the tensors of the
    state of the optimizer, of the traits and distribution of the value; [ks] numbers them:
    Tmp k p is the tensor of kind [k] of parameter [p] *)
Fixpoint gen_slots (ks : list nat) (p : nat) (b : build) : res build :=
  match ks with
  | [] => Ok b
  | k :: ks => b <- alloc (Tmp k p) (bshape b p) (bbase b p) (fun _ => bdistr b p) b ;; gen_slots ks p b
  end.
Fixpoint gen_states (ks ps : list nat) (b : build) : res build :=
  match ps with [] => Ok b | p :: ps => b <- gen_slots ks p b ;; gen_states ks ps b end.

(** The optimizers of the package (amsgrad, which is wrong, is left to C56). *)
Inductive optimizer := OSgd (lr mom wd damp : R) (nest : bool) | OAdam (kd : adam_kind) (lr b1 b2 wd eps : R).
(** kinds of state tensors from [k] on *)
Definition opt_kinds (o : optimizer) (k : nat) : list nat :=
  match o with OSgd _ mom _ _ _ => if Rltb 0 mom then [k] else [] | OAdam _ _ _ _ _ _ => [k; S k] end.
Definition opt_new (o : optimizer) (k : nat) (ps : list nat) (b : build) : res build := gen_states (opt_kinds o k) ps b.
(** num_iter at the start: sgd.py:22, adam.py:28 *)
Definition opt_first (o : optimizer) : Z := match o with OSgd _ _ _ _ _ => 0 | OAdam _ _ _ _ _ _ => 1 end.
(** step() *)
Definition opt_step (req : nat -> bool) (b : build) (o : optimizer) (k : nat) (ps : list nat) (it : Z) : res (list (task XR)) :=
  match o with
  | OSgd lr mom wd damp nest => sgd_step (Fin lr) (Fin mom) (Fin wd) (Fin damp) nest it (map (fun p => (bmom req b p, bt b (Tmp k p))) ps)
  | OAdam kd lr b1 b2 wd eps => adam_tasks kd lr b1 b2 wd eps it (map (fun p => (bmom req b p, (bt b (Tmp k p), bt b (Tmp (S k) p), bt b (Tmp (S (S k)) p)))) ps)
  end.

(** ** The constructor succeeds *)
Record grown (lo : Z) (b b' : build) : Prop := {
  gr_inv : binv lo b'; gr_ext : ext b b'; gr_n : b_n b' = b_n b; gr_layers : b_layers b' = b_layers b; gr_acts : b_acts b' = b_acts b;
  gr_new : forall x t h, b_mem b' x = Some t -> b_mem b x = None -> In h (tile_handles t) -> b_next b <= h;
  gr_next : b_next b <= b_next b'
}.
Lemma grown_refl lo b : binv lo b -> grown lo b b.
Proof. intros H. split; auto; try lia; [apply ext_refl|]. intros x t h H1 H2. congruence. Qed.
Lemma grown_trans lo a b c : grown lo a b -> grown lo b c -> grown lo a c.
Proof.
  intros [a1 a2 a3 a4 a5 a6 a7] [b1 b2 b3 b4 b5 b6 b7]. split; try congruence; try assumption; try lia.
  - eapply ext_trans; eassumption.
  - intros x t h H1 H2 H3. destruct (b_mem b x) as [u|] eqn:E.
    + assert (u = t) by (apply b2 in E; congruence). subst. eapply a6; eassumption.
    + specialize (b6 x t h H1 E H3). lia.
Qed.
Lemma hast_fit lo b x sh ba : binv lo b -> hast b x sh ba -> fit sh ba.
Proof.
  intros H (t & E & <- & <- & _). pose proof (wf_wft _ (bi_wf _ _ H _ _ E)) as W. destruct W. split; [|split]; assumption.
Qed.
Lemma alloc_grown lo k p sh ba d b : binv lo b -> b_mem b (Tmp k p) = None -> fit sh ba -> zlen (d (tn_of sh ba)) = prodZ (gridZ sh ba) ->
  okp (alloc (Tmp k p) sh ba d b) (fun b' => grown lo b b' /\ hast b' (Tmp k p) sh ba /\ forall x, x <> Tmp k p -> b_mem b' x = b_mem b x).
Proof.
  intros [i1 i2 i3 i4 i5] Hn Hf Hd. eapply okp_weaken; [apply (alloc_ok lo (Tmp k p) sh ba d b); assumption|].
  intros b' ([a1 a2 a3 a4 a5 a6 a7 a8 a9 a10 a11] & Hh). split; [|split; assumption]. split; try assumption.
  - split; try assumption. intros m Hm. rewrite !a6 by discriminate. apply i5. rewrite <- a7. assumption.
  - intros x t h H1 H2 H3. destruct (gvar_dec x (Tmp k p)) as [->|N]; [eapply a10; eassumption|]. rewrite a6 in H1 by assumption. congruence.
Qed.
Lemma gen_slots_ok lo p sh ba ks : forall b, binv lo b -> hast b (Val p) sh ba -> NoDup ks -> (forall k, In k ks -> b_mem b (Tmp k p) = None) ->
  okp (gen_slots ks p b) (fun b' => grown lo b b' /\ (forall k, In k ks -> hast b' (Tmp k p) sh ba) /\
    forall x, (forall k, In k ks -> x <> Tmp k p) -> b_mem b' x = b_mem b x).
Proof.
  induction ks as [|k ks IH]; intros b Hb Hp Hn Hf; cbn [gen_slots].
  - split; [apply grown_refl; assumption|]. split; [intros k []|auto].
  - destruct (hast_shape _ _ _ _ Hp) as (E1 & E2 & E3). rewrite E1, E2. apply NoDup_cons_iff in Hn as [N1 N2].
    eapply okp_bind; [apply (alloc_grown lo k p sh ba (fun _ => bdistr b p) b Hb); [apply Hf; left; reflexivity|eapply hast_fit; eassumption|assumption]|].
    intros b1 (G1 & T1 & O1). eapply okp_weaken.
    { apply (IH b1 (gr_inv _ _ _ G1)); [eapply hast_ext; [apply G1|exact Hp]|assumption|].
      intros j Hj. rewrite O1; [apply Hf; right; assumption|]. intros C. inversion C; subst. contradiction. }
    intros b2 (G2 & T2 & O2). split; [eapply grown_trans; eassumption|]. split.
    + intros j [<-|Hj]; [eapply hast_ext; [apply G2|exact T1]|apply T2; assumption].
    + intros x Hx. rewrite O2 by (intros j Hj; apply Hx; right; assumption). apply O1. apply Hx. left. reflexivity.
Qed.
Lemma gen_states_ok lo ks (ps : list nat) : forall b, binv lo b -> (forall p, In p ps -> exists sh ba, hast b (Val p) sh ba) -> NoDup ks -> NoDup ps ->
  (forall k p, In k ks -> In p ps -> b_mem b (Tmp k p) = None) ->
  okp (gen_states ks ps b) (fun b' => grown lo b b' /\ (forall k p sh ba, In k ks -> In p ps -> hast b (Val p) sh ba -> hast b' (Tmp k p) sh ba)).
Proof.
  induction ps as [|p ps IH]; intros b Hb Hp Hk Hn Hf; cbn [gen_states].
  - split; [apply grown_refl; assumption|]. intros ? ? ? ? ? [].
  - inversion Hn as [|? ? N1 N2]; subst. destruct (Hp p (or_introl eq_refl)) as (sh & ba & Hv).
    eapply okp_bind; [apply (gen_slots_ok lo p sh ba ks b Hb Hv Hk); intros; apply Hf; [assumption|left; reflexivity]|].
    intros b1 (G1 & T1 & O1). assert (X1 := gr_ext _ _ _ G1).
    eapply okp_weaken.
    { apply (IH b1 (gr_inv _ _ _ G1)); try assumption.
      - intros q Hq. destruct (Hp q (or_intror Hq)) as (sh' & ba' & Hq'). exists sh', ba'. eapply hast_ext; eassumption.
      - intros k q Hk' Hq. rewrite O1; [apply Hf; [assumption|right; assumption]|]. intros k' _ C. inversion C; subst. contradiction. }
    intros b2 (G2 & T2). split; [eapply grown_trans; eassumption|].
    intros k q sh' ba' Hk' [<-|Hq] Hs.
    + assert (E : sh' = sh /\ ba' = ba). { destruct Hs as (t & E1 & <- & <- & _), Hv as (t' & E2 & <- & <- & _). assert (t' = t) by congruence. subst. split; reflexivity. }
      destruct E as [-> ->]. eapply hast_ext; [apply G2|]. apply T1. assumption.
    + apply T2; [assumption|assumption|]. eapply hast_ext; eassumption.
Qed.

(** ** Specification: the rule of the optimizer, entry by entry.  [p] value, [g] gradient, [m] and
    [v] the two entries of the state *)
Local Open Scope R_scope.
Definition rule_p (o : optimizer) (it : Z) (p g m v : R) : R :=
  match o with OSgd lr mom wd damp nest => sgd_new lr mom wd damp nest it p g m | OAdam kd lr b1 b2 wd eps => step_p kd lr b1 b2 wd eps (Z.to_nat it) p g m v end.
Definition rule_m (o : optimizer) (it : Z) (p g m v : R) : R :=
  match o with OSgd lr mom wd damp nest => sgd_buf mom wd damp it p g m | OAdam kd lr b1 b2 wd eps => step_m kd b1 wd p g m end.
Definition rule_v (o : optimizer) (it : Z) (p g m v : R) : R :=
  match o with OSgd lr mom wd damp nest => v | OAdam kd lr b1 b2 wd eps => step_v kd b2 wd p g v end.
(** hyperparameters in the usual ranges *)
Definition opt_ok (o : optimizer) : Prop := match o with OSgd _ _ _ _ _ => True | OAdam kd lr b1 b2 wd eps => hyper b1 b2 eps end.

Section Good.
Context {E : env} (req : nat -> bool).
Variables (ps : list nat) (k : nat).
Notation S2 := ((nat -> arr) * (nat -> arr))%type.
Definition o_tasks (o : optimizer) (it : Z) : res (list (task XR)) :=
  match o with
  | OSgd lr mom wd damp nest => sgd_step (Fin lr) (Fin mom) (Fin wd) (Fin damp) nest it (map (fun p => (node req p, A (Tmp k p))) ps)
  | OAdam kd lr b1 b2 wd eps => adam_tasks kd lr b1 b2 wd eps it (map (fun p => (node req p, (A (Tmp k p), A (Tmp (S k) p), A (Tmp (S (S k)) p)))) ps)
  end.
Definition o_known (o : optimizer) (it : Z) (S : S2) : nat -> nat -> option arr :=
  match o with OSgd lr mom wd damp nest => sgd_known mom ps k it (fst S) | OAdam kd lr b1 b2 wd eps => adam_known ps k (Datatypes.S k) it S end.
Definition o_inv (o : optimizer) (it : Z) (S : S2) : Prop :=
  match o with OSgd lr mom wd damp nest => True | OAdam kd lr b1 b2 wd eps => adam_inv ps it S end.
Definition o_new (o : optimizer) (it : Z) (S : S2) (e G : nat -> arr) (p : nat) : arr := fun i => rule_p o it (e p i) (G p i) (fst S p i) (snd S p i).
Definition o_next (o : optimizer) (it : Z) (S : S2) (e G : nat -> arr) : S2 :=
  (fun p i => rule_m o it (e p i) (G p i) (fst S p i) (snd S p i), fun p i => rule_v o it (e p i) (G p i) (fst S p i) (snd S p i)).
Definition o_sids : list nat := [k; S k; S (S k)].
Lemma optimizer_good o : opt_ok o -> NoDup ps -> (forall p, In p ps -> node_ok req p /\ req p = true /\
    forall j, In j (opt_kinds o k) -> U (Tmp j p) /\ same_tiling (A (Tmp j p)) (A (Val p))) ->
  opt_good ps o_sids S2 (o_tasks o) (o_known o) (o_inv o) (o_new o) (o_next o).
Proof.
  intros Ho Hn Hp. destruct o as [lr mom wd damp nest|kd lr b1 b2 wd eps].
  - assert (Hq : Forall (fun p => param_ok req k p mom) ps).
    { rewrite Forall_forall. intros p Hin. destruct (Hp p Hin) as (H1 & H2 & H3). split; try assumption. intros Hm. apply H3. cbn [opt_kinds]. apply Rltb_true in Hm. rewrite Hm. left. reflexivity. }
    destruct (sgd_opt_good req lr mom wd damp nest ps k Hn Hq) as [g1 g2 g3]. split.
    + intros it S k' i f Hf. destruct (g1 it (fst S) k' i f Hf) as [[<-|[]] Hu]. split; [left; reflexivity|assumption].
    + auto.
    + intros it S M s e G _ HM Hv Hk. eapply nd_weaken; [apply (g3 it (fst S) M s e G I HM Hv Hk)|].
      intros s' _ (M' & q1 & q2 & q3 & q4 & q5). exists M'. split; [assumption|]. split; [assumption|]. split; [assumption|]. split; [|assumption].
      intros j i Hj. apply q4. intros [<-|[]]. apply Hj. left. reflexivity.
  - assert (Hq : Forall (adam_param_ok req k (S k) (S (S k)) false) ps).
    { rewrite Forall_forall. intros p Hin. destruct (Hp p Hin) as (H1 & H2 & H3). split; try assumption; [apply H3; left; reflexivity|apply H3; right; left; reflexivity|discriminate]. }
    assert (N3 : NoDup [k; S k; S (S k)]) by (repeat constructor; cbn [In]; intuition lia).
    exact (adam_opt_good req kd lr b1 b2 wd eps ps k (S k) (S (S k)) Ho N3 Hn Hq).
Qed.
End Good.
