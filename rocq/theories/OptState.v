(** * The tensors of the state of an optimizer between two steps *)
From Coq Require Import Reals Lra FunctionalExtensionality Sorted.
From Coquelicot Require Import Coquelicot.
From Verif Require Import Base Spec Geometry Traits TraitsProofs Runtime Ops RealOps TensorSem OneOut ElemOps ElemGeneric Concrete Axis SliceGeo Sequence XReals NdRuns AnyRuns Serial2 RSum AttnSpec MatOps PropElem IntCopy CrossEntropy XTriples HasRuns TapeMath VjpMath Tape PyLayers PyLinear PySimple PyNorm AttMath PyAttn Backprop CeLoss PropLayers PropModel PyTrain PropTrain PyAdam PropAdam PyModels BuildEnv GptBuild BuildModel OptBuild GptSpec GptModel GptRun PropGpt GptTrain.
Local Close Scope Z_scope.
Local Open Scope R_scope.

(** ** Specification *)
(** What the tensors of the optimizer hold between two steps (not before the first one), for the
    parameter number [j]: SGD with momentum the buffer [m]; Adam and AdamW the first moment [m] and
    the square root of the second moment [v].  [ps]: the parameters; the tensors of the optimizer are
    named from [k] on. *)
Definition opt_state (o : optimizer) (b : build) (ps : list nat) (k : nat) (m v : nat -> arr) (s : store XR) : Prop :=
  forall j idx, (j < List.length ps)%nat ->
    let p := nth j ps O in
    inb (t_shape (bt b (Val p))) idx ->
    match o with
    | OSgd _ mom _ _ _ => 0 < mom -> elem s (bt b (Tmp k p)) idx = Fin (m j idx)
    | OAdam _ _ _ _ _ _ => elem s (bt b (Tmp k p)) idx = Fin (m j idx) /\
        elem s (bt b (Tmp (S k) p)) idx = Fin (sqrt (v j idx))
    end.

(** ** Iterates *)
Lemma iterates_app o shapes l1 : forall it l2 P m v P1 m1 v1 h1 P2 m2 v2 h2,
  opt_iterates o shapes it l1 P m v P1 m1 v1 h1 -> opt_iterates o shapes (it + zlen l1) l2 P1 m1 v1 P2 m2 v2 h2 ->
  opt_iterates o shapes it (l1 ++ l2) P m v P2 m2 v2 (h1 ++ h2).
Proof.
  induction l1 as [|x l1 IH]; intros it l2 P m v P1 m1 v1 h1 P2 m2 v2 h2 H1 H2.
  - destruct H1 as (-> & -> & -> & ->). change (zlen []) with 0%Z in H2. rewrite Z.add_0_r in H2. exact H2.
  - cbn [opt_iterates app] in *. destruct H1 as (P' & m' & v' & h' & U1 & -> & R1). exists P', m', v', (h' ++ h2). split; [assumption|]. split; [reflexivity|].
    eapply IH; [exact R1|]. replace (it + 1 + zlen l1)%Z with (it + zlen (x :: l1))%Z by (rewrite zlen_cons; lia). exact H2.
Qed.
Lemma iterates_split o shapes l1 : forall it l2 P m v P2 m2 v2 h,
  opt_iterates o shapes it (l1 ++ l2) P m v P2 m2 v2 h -> exists P1 m1 v1 h1 h2, h = h1 ++ h2 /\
  opt_iterates o shapes it l1 P m v P1 m1 v1 h1 /\ opt_iterates o shapes (it + zlen l1) l2 P1 m1 v1 P2 m2 v2 h2.
Proof.
  induction l1 as [|x l1 IH]; intros it l2 P m v P2 m2 v2 h H.
  - exists P, m, v, [], h. split; [reflexivity|]. split; [repeat split|]. change (zlen []) with 0%Z. rewrite Z.add_0_r. exact H.
  - cbn [opt_iterates app] in *. destruct H as (P' & m' & v' & h' & U1 & -> & R1). apply IH in R1 as (P1 & m1 & v1 & h1 & h2 & -> & R1 & R2).
    exists P1, m1, v1, (x P :: h1), h2. split; [reflexivity|]. split; [exists P', m', v', h1; auto|].
    replace (it + zlen (x :: l1))%Z with (it + 1 + zlen l1)%Z by (rewrite zlen_cons; lia). exact R2.
Qed.

Section Inv.
Variables (o : optimizer) (ps : list nat).
Lemma o_inv0 : o_inv ps o (opt_first o) (penv ps (fun _ _ => 0), penv ps (fun _ _ => 0)).
Proof.
  destruct o as [lr mom wd damp nest|kd lr b1 b2 wd eps]; cbn [o_inv opt_first]; [exact Logic.I|]. split; [lia|]. unfold penv. cbn [fst snd]. split; [intros; lra|intros; split; reflexivity].
Qed.
Lemma o_inv_update shapes it loss P m v P' m' v' : opt_ok o -> o_inv ps o it (penv ps m, penv ps v) ->
  opt_update o shapes it loss P m v P' m' v' -> o_inv ps o (it + 1) (penv ps m', penv ps v').
Proof.
  destruct o as [lr mom wd damp nest|kd lr b1 b2 wd eps]; cbn [o_inv opt_ok]; [auto|]. intros Ho (I1 & I2 & I3) (g & _ & _ & _ & Hv).
  split; [lia|]. split; [|lia]. intros p i Hp. cbn [snd]. unfold penv. rewrite Hv. apply ad_v_pos; [apply Ho|]. apply (I2 p i Hp).
Qed.
Lemma o_inv_iterates shapes l : forall it P m v P' m' v' h, opt_ok o -> o_inv ps o it (penv ps m, penv ps v) ->
  opt_iterates o shapes it l P m v P' m' v' h -> o_inv ps o (it + zlen l) (penv ps m', penv ps v').
Proof.
  induction l as [|x l IH]; intros it P m v P' m' v' h Ho Hi H.
  - destruct H as (-> & -> & -> & _). change (zlen []) with 0%Z. rewrite Z.add_0_r. assumption.
  - destruct H as (P1 & m1 & v1 & h' & U1 & _ & R1). apply o_inv_update in U1; try assumption.
    replace (it + zlen (x :: l))%Z with (it + 1 + zlen l)%Z by (rewrite zlen_cons; lia). eapply IH; eassumption.
Qed.
End Inv.

(** ** The state and what [o_known] records *)
Section St.
Variables (o : optimizer) (b : build) (ps : list nat) (kid : nat).
Hypothesis HT : forall p j, In p ps -> In j (opt_kinds o kid) -> bU b (Tmp j p) /\ t_shape (PyModels.bt b (Tmp j p)) = t_shape (PyModels.bt b (Val p)).
Lemma state_known (m v : nat -> arr) s it k i f idx : opt_state o b ps kid m v s ->
  o_known ps kid o it (penv ps m, penv ps v) k i = Some f -> inb (t_shape (PyModels.bt b (Tmp k i))) idx ->
  elem s (PyModels.bt b (Tmp k i)) idx = Fin (f idx).
Proof.
  intros Hst Hf Hi. unfold opt_state in Hst.
  destruct o as [lr mom wd damp nest|kd lr b1 b2 wd eps]; cbn [o_known fst snd] in Hf.
  - unfold sgd_known in Hf. destruct (Nat.eq_dec k kid) as [->|]; [|discriminate]. destruct (in_dec Nat.eq_dec i ps) as [Hin|]; [|discriminate].
    destruct (Rltb 0 mom) eqn:Em; [|discriminate]. destruct (it =? 0)%Z; [discriminate|]. injection Hf as <-.
    destruct (HT i kid Hin) as [_ Es]; [cbn [opt_kinds]; rewrite Em; left; reflexivity|]. rewrite Es in Hi.
    destruct (nth_index _ _ Hin) as [E1 E2]. specialize (Hst _ idx E2). cbv zeta in Hst. rewrite E1 in Hst. apply Hst; [exact Hi|apply Rltb_true; assumption].
  - unfold adam_known in Hf. destruct (it =? 1)%Z; [discriminate|]. destruct (in_dec Nat.eq_dec i ps) as [Hin|]; [|discriminate].
    destruct (nth_index _ _ Hin) as [E1 E2].
    destruct (Nat.eq_dec k kid) as [->|Hk].
    + injection Hf as <-. destruct (HT i kid Hin) as [_ Es]; [left; reflexivity|]. rewrite Es in Hi.
      specialize (Hst _ idx E2). cbv zeta in Hst. rewrite E1 in Hst. apply Hst. exact Hi.
    + destruct (Nat.eq_dec k (S kid)) as [->|]; [|discriminate]. injection Hf as <-. destruct (HT i (S kid) Hin) as [_ Es]; [right; left; reflexivity|]. rewrite Es in Hi.
      specialize (Hst _ idx E2). cbv zeta in Hst. rewrite E1 in Hst. apply Hst. exact Hi.
Qed.
Lemma known_state (m v : nat -> arr) s it : NoDup ps -> (opt_first o <= it)%Z -> it <> opt_first o ->
  (forall k i f idx, o_known ps kid o it (penv ps m, penv ps v) k i = Some f -> bU b (Tmp k i) -> inb (t_shape (PyModels.bt b (Tmp k i))) idx ->
    elem s (PyModels.bt b (Tmp k i)) idx = Fin (f idx)) ->
  opt_state o b ps kid m v s.
Proof.
  intros ND Hle Hne Hk. unfold opt_state. intros j idx Hj. cbv zeta. set (p := nth j ps O). intros Hi.
  assert (Hp : In p ps) by (apply nth_In; assumption).
  assert (Ej : index p ps = j) by (apply index_nth; assumption).
  destruct o as [lr mom wd damp nest|kd lr b1 b2 wd eps]; cbn [opt_first] in *.
  - intros Hm. apply Rltb_true in Hm. destruct (HT p kid Hp) as [Hu Es]; [cbn [opt_kinds]; rewrite Hm; left; reflexivity|].
    rewrite (Hk kid p (penv ps m p)); [unfold penv; rewrite Ej; reflexivity| |assumption|rewrite Es; exact Hi].
    cbn [o_known fst]. unfold sgd_known. destruct (Nat.eq_dec kid kid); [|congruence]. destruct (in_dec Nat.eq_dec p ps); [|contradiction]. rewrite Hm.
    destruct (Z.eqb_spec it 0); [congruence|reflexivity].
  - split.
    + destruct (HT p kid Hp) as [Hu Es]; [left; reflexivity|].
      rewrite (Hk kid p (penv ps m p)); [unfold penv; rewrite Ej; reflexivity| |assumption|rewrite Es; exact Hi].
      cbn [o_known fst]. unfold adam_known. destruct (Z.eqb_spec it 1); [congruence|]. destruct (in_dec Nat.eq_dec p ps); [|contradiction]. destruct (Nat.eq_dec kid kid); [reflexivity|congruence].
    + destruct (HT p (S kid) Hp) as [Hu Es]; [right; left; reflexivity|].
      rewrite (Hk (S kid) p (fun i => sqrt (penv ps v p i))); [unfold penv; rewrite Ej; reflexivity| |assumption|rewrite Es; exact Hi].
      cbn [o_known snd]. unfold adam_known. destruct (Z.eqb_spec it 1); [congruence|]. destruct (in_dec Nat.eq_dec p ps); [|contradiction].
      destruct (Nat.eq_dec (S kid) kid); [lia|]. destruct (Nat.eq_dec (S kid) (S kid)); [reflexivity|congruence].
Qed.
End St.
