(** * Concrete environments, to show that the hypotheses of the theorems on layers can be met *)
From Coq Require Import Reals Lra.
From Verif Require Import Base Spec Geometry Traits TraitsProofs Runtime Ops RealOps TensorSem ElemGeneric Concrete XReals XTriples HasRuns.
Local Close Scope R_scope.
Local Open Scope Z_scope.

(** Named tensors get handles 100 apart; other data lives in negative handles. *)
Definition gnum (x : gvar) : Z :=
  match x with Val n => 3 * Z.of_nat n | Grad n => 3 * Z.of_nat n + 1 | Tmp k i => 3 * (20 * Z.of_nat k + Z.of_nat i) + 2 end.
Definition gsmall (x : gvar) : Prop := match x with Tmp _ i => (i < 20)%nat | _ => True end.
Lemma gnum_inj x y : gsmall x -> gsmall y -> gnum x = gnum y -> x = y.
Proof.
  destruct x as [n|n|k i], y as [m|m|k' i']; cbn [gnum gsmall]; intros H1 H2 H3; try (exfalso; lia); f_equal; lia.
Qed.
Lemma gnum_nonneg x : 0 <= gnum x.
Proof. destruct x; cbn; lia. Qed.

Section Env.
Variables (sh ba : gvar -> list Z) (l : list gvar) (k0 : store XR).
Definition ctensor (x : gvar) : tensor := std_tensor (sh x) (ba x) (100 * gnum x).
Definition cfits (x : gvar) : Prop := gsmall x /\ zlen (sh x) = zlen (ba x) /\ pos (sh x) /\ pos (ba x) /\ prodZ (gridZ (sh x) (ba x)) <= 100.
Hypothesis HF : Forall cfits l.
Lemma cfit x : In x l -> cfits x.
Proof. rewrite Forall_forall in HF. apply HF. Qed.
Lemma c_wf x : In x l -> wf_tensor (ctensor x).
Proof. intros H. destruct (cfit x H) as (_ & H1 & H2 & H3 & _). apply std_wf; assumption. Qed.
Lemma c_disj x y : In x l -> In y l -> x <> y -> disj (ctensor x) (ctensor y).
Proof.
  intros Hx Hy Hn. destruct (cfit x Hx) as (S1 & _ & _ & _ & L1), (cfit y Hy) as (S2 & _ & _ & _ & L2). apply std_disj.
  assert (gnum x <> gnum y) by (intros Hc; apply Hn, gnum_inj; assumption). lia.
Qed.
Definition kept (s : store XR) : Prop := forall h, h < 0 -> s h = k0 h.
Lemma c_kept x (s s' : store XR) : In x l -> tinv s s' -> frame [ctensor x] s s' -> kept s -> kept s'.
Proof.
  intros Hx _ Hf Hk h Hh. rewrite Hf; [apply Hk; assumption|]. intros t [<-|[]] Hin. apply std_handles in Hin. pose proof (gnum_nonneg x). lia.
Qed.
Definition cenv : env := {| A := ctensor; U := fun x => In x l; K := kept; UW := c_wf; UD := c_disj; UK := c_kept |}.

(** The store in which every tensor of [l] holds given reals. *)
Definition cstore (f : gvar -> list Z -> R) : store XR := fold_right (fun x s => put (ctensor x) (fin (f x)) s) k0 l.
Lemma cstore_ok f : NoDup l -> kept (cstore f) /\ forall x, In x l -> stored KF (cstore f) (ctensor x) /\ xval (cstore f) (ctensor x) (fin (f x)).
Proof.
  unfold cstore. intros Hn.
  assert (G : forall l', incl l' l -> NoDup l' ->
    kept (fold_right (fun x s => put (ctensor x) (fin (f x)) s) k0 l') /\
    forall x, In x l' -> stored KF (fold_right (fun x s => put (ctensor x) (fin (f x)) s) k0 l') (ctensor x) /\
      xval (fold_right (fun x s => put (ctensor x) (fin (f x)) s) k0 l') (ctensor x) (fin (f x))); [|apply G; [apply incl_refl|assumption]].
  induction l' as [|y l' IH]; intros Hinc Hnd.
  - split; [intros h _; reflexivity|intros x []].
  - inversion Hnd as [|? ? Hy Hnd']; subst. destruct (IH (fun x Hx => Hinc x (or_intror Hx)) Hnd') as [I1 I2].
    assert (Hyl : In y l) by (apply Hinc; left; reflexivity).
    cbn [fold_right]. split.
    + intros h Hh. unfold put. rewrite put_other; [apply I1; assumption|]. intros Hin. apply std_handles in Hin. pose proof (gnum_nonneg y). lia.
    + intros x [<-|Hx].
      * split; [apply put_stored, wf_wft, c_wf; assumption|]. intros idx Hi. apply put_elem; [apply wf_wft, c_wf; assumption|assumption].
      * assert (Hxl : In x l) by (apply Hinc; right; assumption).
        assert (Hd : disj (ctensor x) (ctensor y)) by (apply c_disj; [assumption|assumption|intros ->; contradiction]).
        destruct (I2 x Hx) as [J1 J2]. split; [apply put_stored_other; [apply wf_wft, c_wf; assumption|assumption|assumption]|].
        intros idx Hi. unfold put. rewrite put_elem_other; [apply J2; assumption|apply wf_wft, c_wf; assumption|assumption|assumption].
Qed.
End Env.
