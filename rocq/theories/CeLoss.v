(** * The cross-entropy loss (crossentropy.py) as the loss of a model *)
From Coq Require Import Reals Lra FunctionalExtensionality.
From Coquelicot Require Import Coquelicot.
From Verif Require Import Base Spec Geometry Traits TraitsProofs Runtime Ops RealOps TensorSem OneOut ElemOps Formulas Axis Sequence XReals NdRuns AnyRuns RSum MatOps PropElem PropElemR PropSlice SoftmaxScalar SoftmaxOps PropSoftmax LossOps Serial2 CrossEntropy IntCopy XTriples HasRuns TapeMath VjpMath Tape PyLayers PyLinear PySimple PyNorm Backprop.
Local Close Scope Z_scope.
Local Open Scope R_scope.

Section Ce.
Context {E : env} (req : nat -> bool).

Lemma K_frames ys (s s' : store XR) : Forall U ys -> tinv s s' -> frame (map A ys) s s' -> K s -> K s'.
Proof.
  revert s. induction ys as [|y ys IH]; intros s HU Ht Hf HK.
  - assert (s' = s) as ->; [|assumption]. apply functional_extensionality. intros h. apply Hf. intros t [].
  - inversion HU as [|? ? Hy HU']; subst.
    set (s1 := fun h => if in_dec Z.eq_dec h (tile_handles (A y)) then s' h else s h).
    assert (T1 : tinv s s1) by (intros h; unfold s1; destruct (in_dec _ _ _); [apply Ht|reflexivity]).
    apply (IH s1 HU').
    + intros h. rewrite (T1 h). apply Ht.
    + intros h Hh. unfold s1. destruct (in_dec _ _ _) as [|Hc]; [reflexivity|]. apply Hf. intros t [<-|Hin]; [assumption|apply Hh; assumption].
    + apply (UK y s s1 Hy T1); [|assumption]. intros h Hh. unfold s1. destruct (in_dec _ _ _) as [Hc|]; [|reflexivity]. exfalso. exact (Hh (A y) (or_introl eq_refl) Hc).
Qed.
Lemma has_writes M s s' ys (V : smap) : has M s -> Forall U ys -> tinv s s' -> frame (map A ys) s s' ->
  (forall y f, In y ys -> V y = Some f -> xval s' (A y) f) ->
  has (fun x => if in_dec gvar_dec x ys then V x else M x) s'.
Proof.
  intros [HK H] HU Ht Hf Hv. split; [eapply K_frames; eassumption|]. intros x Hx. destruct (H x Hx) as [Sx Vx].
  split; [apply (tinv_stored s s' KF); assumption|]. intros f. destruct (in_dec gvar_dec x ys) as [Hi|Hi]; [apply Hv; assumption|].
  intros Hm idx Hin. rewrite <- (Vx f Hm) by assumption. apply (frame_elem (map A ys)); [apply wf_wft, UW; assumption|assumption| |assumption].
  intros t Hin'. apply in_map_iff in Hin' as (y & <- & Hy). rewrite Forall_forall in HU. apply UD; auto. intros ->. contradiction.
Qed.

(** ** The gradient of the loss *)
Lemma ce_gradient a n sh lab : (0 < n)%Z -> pos sh -> (forall idx, inb sh idx -> (0 <= lab idx < n)%Z) ->
  gradient_of (n :: sh) (fun _ => True) (ce_loss a n sh lab) (fun v i => match i with l :: idx => ce_grad a n lab v l idx | [] => 0 end).
Proof.
  intros Hn Hp Hlab c c' t0 _ Hc. unfold ce_loss.
  set (S := fun idx t => Rsum n (fun k => exp (c t (k :: idx)))).
  assert (HS : forall idx t, 0 < S idx t) by (intros; apply sumexp_pos'; assumption).
  assert (Hin : forall idx k, inb sh idx -> (0 <= k < n)%Z -> inb (n :: sh) (k :: idx)) by (intros; constructor; assumption).
  assert (D1 : forall idx, inb sh idx -> is_derive (fun t => ln (S idx t)) t0 (Rsum n (fun k => exp (c t0 (k :: idx)) * c' (k :: idx)) / S idx t0)).
  { intros idx Hi. evar_last.
    - apply (is_derive_comp (K := R_AbsRing) (V := R_NormedModule) ln (S idx)); [apply is_derive_ln, HS|].
      apply (is_derive_Rsuml (zrange n) (fun k t => exp (c t (k :: idx))) (fun k => c' (k :: idx) * exp (c t0 (k :: idx)))). intros k Hk. apply zrange_In in Hk.
      apply (is_derive_comp (K := R_AbsRing) (V := R_NormedModule) exp (fun t => c t (k :: idx))); [apply is_derive_exp|apply Hc, Hin; assumption].
    - unfold scal; cbn; unfold mult; cbn. unfold Rdiv. f_equal. apply Rsuml_ext. intros. ring. }
  evar_last.
  - apply (is_derive_scal (fun t => Rsuml (all_idx sh) (fun idx => ln (S idx t) - c t (lab idx :: idx))) t0 a).
    apply (is_derive_Rsuml (all_idx sh) (fun idx t => ln (S idx t) - c t (lab idx :: idx))
      (fun idx => Rsum n (fun k => exp (c t0 (k :: idx)) * c' (k :: idx)) / S idx t0 - c' (lab idx :: idx))).
    intros idx Hi. apply all_idx_In in Hi; [|assumption].
    apply (is_derive_minus (K := R_AbsRing) (V := R_NormedModule)); [apply D1; assumption|apply Hc, Hin; [assumption|apply Hlab; assumption]].
  - unfold dot. cbv beta. match goal with |- scal a ?x = _ => change (scal a x) with (a * x) | _ => idtac end. rewrite <- Rsuml_scal. rewrite (Rsuml_rows (n :: sh) 0) by (first [constructor; assumption|rewrite zlen_cons; pose proof (zlen_nonneg sh); lia]). change (del 0 (n :: sh)) with sh. change (zn (n :: sh) 0) with n. apply Rsuml_ext. intros idx Hi. apply all_idx_In in Hi; [|assumption].
    transitivity (a * (Rsum n (fun k => exp (c t0 (k :: idx)) / S idx t0 * c' (k :: idx)) - Rsum n (fun k => if (lab idx =? k)%Z then c' (k :: idx) else 0))).
    + f_equal. f_equal; [unfold Rdiv; unfold Rsum; rewrite Rmult_comm, <- Rsuml_scal; apply Rsuml_ext; intros; ring|].
      symmetry. unfold Rsum. rewrite (Rsuml_ext _ _ (fun k => if Z.eq_dec k (lab idx) then c' (k :: idx) else 0)).
      * apply (Rsuml_one Z.eq_dec (zrange n) (lab idx) (fun k => c' (k :: idx))); [apply NoDup_zrange|apply zrange_In, Hlab; assumption].
      * intros k _. destruct (Z.eqb_spec (lab idx) k), (Z.eq_dec k (lab idx)); congruence.
    + rewrite <- AttnSpec.Rsum_minus. unfold Rsum. rewrite <- Rsuml_scal. apply Rsuml_ext. intros k _. change (ins 0 k idx) with (k :: idx). cbv beta iota. unfold ce_grad. fold (S idx t0). destruct (lab idx =? k)%Z; ring.
Qed.

(** ** The loss: model_output = node o; val, maxsumexp, logsumexp are temporaries 0, 1, 2 of [lid] *)
Record ce_shape (o lid : nat) (labels : tensor) (n : Z) (sh : list Z) : Prop := {
  cs_o : node_ok req o;
  cs_req : req o = true;
  cs_U : forall i, (i < 3)%nat -> U (Tmp lid i);
  cs_labels : wf_tensor labels;
  cs_disj : forall x, U x -> disj labels (A x);
  cs_match : ce_match (A (Val o)) labels (A (Tmp lid 1)) (A (Tmp lid 2)) (A (Tmp lid 0)) (A (Grad o)) n sh
}.
Record ce_ok (o lid : nat) (labels : tensor) (lab : list Z -> Z) (n : Z) (sh : list Z) : Prop := {
  co_o : node_ok req o;
  co_req : req o = true;
  co_U : forall i, (i < 3)%nat -> U (Tmp lid i);
  co_labels : wf_tensor labels;
  co_disj : forall x, U x -> disj labels (A x);
  co_match : ce_match (A (Val o)) labels (A (Tmp lid 1)) (A (Tmp lid 2)) (A (Tmp lid 0)) (A (Grad o)) n sh;
  co_lab : forall s, K s -> stored KI s labels /\ forall idx, inb sh idx -> ielem s labels idx = lab idx;
  co_range : forall idx, inb sh idx -> (0 <= lab idx < n)%Z
}.
Lemma disj_sym (a b : tensor) : disj a b -> disj b a.
Proof. intros H h H1 H2. exact (H h H2 H1). Qed.
Lemma ce_loss_ext a n sh lab lab' v : pos sh -> (forall idx, inb sh idx -> lab idx = lab' idx) -> ce_loss a n sh lab v = ce_loss a n sh lab' v.
Proof. intros Hp H. unfold ce_loss. f_equal. apply Rsuml_ext. intros idx Hi. apply all_idx_In in Hi; [|assumption]. rewrite H by assumption. reflexivity. Qed.

(** one calculation of the loss, from a state in which the labels are [lab] *)
Lemma ce_step o lid labels lab n sh (a L0 : R) v M G s : ce_shape o lid labels n sh ->
  stored KI s labels -> (forall idx, inb sh idx -> ielem s labels idx = lab idx) -> (forall idx, inb sh idx -> (0 <= lab idx < n)%Z) ->
  st req M G s -> M (Tmp lid 0) = Some (fin (fun _ => L0)) -> M (Val o) = Some (fin v) ->
  runs_acc (crossentropy_calc (Fin a) (A (Val o)) labels (A (Tmp lid 1)) (A (Tmp lid 2)) (A (Tmp lid 0)) (A (Grad o))) s (fun s' =>
    exists M' G', st req M' G' s' /\ (forall idx, inb (vshape o) idx -> G' o idx = (match idx with l :: r => ce_grad a n lab v l r | [] => 0 end)) /\ (forall n, n <> o -> G' n = G n) /\
      M' (Tmp lid 0) = Some (fin (fun _ => L0 + ce_loss a n sh lab v)) /\
      (forall n, M' (Val n) = M (Val n)) /\ (forall k i, k <> lid -> M' (Tmp k i) = M (Tmp k i)) /\ frame (map A [Tmp lid 1; Tmp lid 2; Tmp lid 0; Grad o]) s s').
Proof.
  intros [On Or OU Ol Od Om] Sl El Orng Hs H0 Hv. destruct On as [Uo Hg]. destruct (Hg Or) as [Ug Sg].
  assert (U0 : U (Tmp lid 0)) by (apply OU; lia). assert (U1 : U (Tmp lid 1)) by (apply OU; lia). assert (U2 : U (Tmp lid 2)) by (apply OU; lia).
  assert (Psh : pos sh). { rewrite <- (cm_labels _ _ _ _ _ _ _ _ Om). apply wf_ps, wf_wft. assumption. }
  assert (Esh : vshape o = n :: sh) by apply (cm_src _ _ _ _ _ _ _ _ Om).
  assert (HDD : ForallOrdPairs disj [A (Val o); labels; A (Tmp lid 1); A (Tmp lid 2); A (Tmp lid 0); A (Grad o)]).
  { repeat match goal with |- ForallOrdPairs _ _ => constructor | |- Forall _ _ => constructor end;
    first [apply Od; assumption|apply disj_sym, Od; assumption|apply UD; try assumption; discriminate]. }
  pose proof (crossentropy_acc _ _ _ _ _ _ n sh (UW _ Uo) Ol (UW _ U1) (UW _ U2) (UW _ U0) (UW _ Ug) Om HDD a s v L0
    (has_st _ _ _ Hs Uo) Sl (has_st _ _ _ Hs U1) (has_st _ _ _ Hs U2) (has_st _ _ _ Hs U0) (has_st _ _ _ Hs Ug)) as Hr.
  eapply acc_weaken; [apply Hr|].
  - intros idx Hi. apply (has_val _ _ _ _ Hs Uo Hv idx Hi).
  - apply (has_val _ s (Tmp lid 0) (fin (fun _ => L0)) Hs U0); [cbn [ov]; assumption|]. rewrite (cm_val _ _ _ _ _ _ _ _ Om). constructor.
  - intros idx Hi. rewrite El by assumption. apply Orng. assumption.
  - clear Hr. intros s' Ht (R1 & R2 & R3).
    set (dL := fun i => match i with l :: idx => ce_grad a n lab v l idx | [] => 0 end).
    exists (fun x => if in_dec gvar_dec x [Tmp lid 1; Tmp lid 2] then None else upd (Tmp lid 0) (Some (fin (fun _ => L0 + ce_loss a n sh lab v))) M x),
      (fun m => if Nat.eq_dec m o then dL else G m).
    split; [|split; [|split; [|split; [|split; [|split]]]]].
    + eapply has_sub; [apply (has_writes _ s s' [Tmp lid 1; Tmp lid 2; Tmp lid 0; Grad o]
        (fun x => match x with Tmp _ 0 => Some (fin (fun _ => L0 + ce_loss a n sh lab v)) | Grad _ => Some (fin dL) | _ => None end) Hs)|].
      * repeat constructor; assumption.
      * assumption.
      * exact R3.
      * intros y f [<-|[<-|[<-|[<-|[]]]]] Ef; inversion Ef; subst.
        -- intros idx Hi. rewrite (cm_val _ _ _ _ _ _ _ _ Om) in Hi. inversion Hi; subst. rewrite R1. unfold fin. rewrite (ce_loss_ext a n sh _ lab) by assumption. reflexivity.
        -- intros idx Hi. destruct (cm_grad _ _ _ _ _ _ _ _ Om) as [Eg _]. destruct (cm_src _ _ _ _ _ _ _ _ Om) as [Es _]. rewrite Eg, Es in Hi.
           inversion Hi as [|? l ? idx' Hl Hi']; subst. rewrite R2 by assumption. unfold fin, dL, ce_grad. rewrite El by assumption. reflexivity.
      * intros x f Hx Hf. destruct x as [m|m|k i]; cbn [ov] in Hf.
        -- destruct (in_dec gvar_dec (Val m) [Tmp lid 1; Tmp lid 2; Tmp lid 0; Grad o]) as [[C|[C|[C|[C|[]]]]]|_]; try discriminate C. destruct (in_dec _ _ _) in Hf; [discriminate|]. rewrite upd_ne in Hf by discriminate. exact Hf.
        -- destruct (Nat.eq_dec m o) as [->|Hmo].
           ++ destruct (in_dec gvar_dec (Grad o) [Tmp lid 1; Tmp lid 2; Tmp lid 0; Grad o]) as [|C]; [|exfalso; apply C; cbn; tauto]. rewrite Or in Hf. exact Hf.
           ++ destruct (in_dec gvar_dec (Grad m) [Tmp lid 1; Tmp lid 2; Tmp lid 0; Grad o]) as [[C|[C|[C|[C|[]]]]]|_]; try discriminate C; [congruence|]. exact Hf.
        -- destruct (in_dec gvar_dec (Tmp k i) [Tmp lid 1; Tmp lid 2]) as [|N1]; [discriminate|]. unfold upd in Hf. destruct (gvar_dec (Tmp k i) (Tmp lid 0)) as [Eq|N2].
           ++ inversion Eq; subst. destruct (in_dec gvar_dec (Tmp lid 0) [Tmp lid 1; Tmp lid 2; Tmp lid 0; Grad o]) as [|C]; [exact Hf|exfalso; apply C; cbn; tauto].
           ++ destruct (in_dec gvar_dec (Tmp k i) [Tmp lid 1; Tmp lid 2; Tmp lid 0; Grad o]) as [[C|[C|[C|[C|[]]]]]|_]; [exfalso; apply N1; cbn; tauto|exfalso; apply N1; cbn; tauto|congruence|discriminate C|]. exact Hf.
    + intros idx _. destruct (Nat.eq_dec o o); [reflexivity|congruence].
    + intros m Hm. destruct (Nat.eq_dec m o); [contradiction|reflexivity].
    + destruct (in_dec _ _ _) as [[C|[C|[]]]|_]; [discriminate C|discriminate C|]. apply upd_eq.
    + intros m. destruct (in_dec _ _ _) as [[C|[C|[]]]|_]; [discriminate C|discriminate C|]. apply upd_ne. discriminate.
    + intros k i Hk. destruct (in_dec _ _ _) as [[C|[C|[]]]|_]; [congruence|congruence|]. apply upd_ne. congruence.
    + exact R3.
Qed.
Lemma ce_ok_shape o lid labels lab n sh : ce_ok o lid labels lab n sh -> ce_shape o lid labels n sh.
Proof. intros [c1 c2 c3 c4 c5 c6 c7 c8]. split; assumption. Qed.
Theorem ce_good_acc ids o lid labels lab n sh (M0 : smap) (a L0 : R) : ce_ok o lid labels lab n sh -> ~ In lid ids -> M0 (Tmp lid 0) = Some (fin (fun _ => L0)) ->
  loss_good req runs_acc ids o lid M0 (fun _ => True) (fun v => L0 + ce_loss a n sh lab v)
    (fun v i => match i with l :: idx => ce_grad a n lab v l idx | [] => 0 end)
    (crossentropy_calc (Fin a) (A (Val o)) labels (A (Tmp lid 1)) (A (Tmp lid 2)) (A (Tmp lid 0)) (A (Grad o))).
Proof.
  intros H Hid H0 v M G s Hs HM Hv _. destruct (co_lab _ _ _ _ _ _ H s (has_K _ _ Hs)) as [Sl El].
  eapply acc_weaken; [apply (ce_step o lid labels lab n sh a L0 v M G s (ce_ok_shape _ _ _ _ _ _ H) Sl El (co_range _ _ _ _ _ _ H) Hs)|].
  - rewrite HM; assumption.
  - assumption.
  - intros s' _ (M' & G' & S1 & S2 & S3 & S4 & S5 & S6 & _). exists M', G'. repeat (split; [assumption|]). assumption.
Qed.
Theorem ce_good ids o lid labels lab n sh (M0 : smap) (a L0 : R) : ce_ok o lid labels lab n sh -> ~ In lid ids -> M0 (Tmp lid 0) = Some (fin (fun _ => L0)) ->
  loss_good req runs_any ids o lid M0 (fun _ => True) (fun v => L0 + ce_loss a n sh lab v)
    (fun v i => match i with l :: idx => ce_grad a n lab v l idx | [] => 0 end)
    (crossentropy_calc (Fin a) (A (Val o)) labels (A (Tmp lid 1)) (A (Tmp lid 2)) (A (Tmp lid 0)) (A (Grad o))).
Proof. intros H Hid H0 v M G s Hs HM Hv HD. apply acc_any. exact (ce_good_acc ids o lid labels lab n sh M0 a L0 H Hid H0 v M G s Hs HM Hv HD). Qed.
(** The labels are copied from [src] before (pipeline.py:61-63). *)
Theorem ce_good_copied ids o lid src labels lab n sh (M0 : smap) (a L0 : R) : ce_shape o lid labels n sh -> ~ In lid ids -> M0 (Tmp lid 0) = Some (fin (fun _ => L0)) ->
  wf_tensor src -> same_tiling src labels -> disj src labels ->
  (forall s s' : store XR, tinv s s' -> frame [labels] s s' -> K s -> K s') ->
  (forall s, K s -> stored KI s labels /\ stored KI s src /\ forall idx, inb sh idx -> ielem s src idx = lab idx) ->
  (forall idx, inb sh idx -> (0 <= lab idx < n)%Z) ->
  loss_good req runs_acc ids o lid M0 (fun _ => True) (fun v => L0 + ce_loss a n sh lab v)
    (fun v i => match i with l :: idx => ce_grad a n lab v l idx | [] => 0 end)
    (then_ (copy_async src labels) (crossentropy_calc (Fin a) (A (Val o)) labels (A (Tmp lid 1)) (A (Tmp lid 2)) (A (Tmp lid 0)) (A (Grad o)))).
Proof.
  intros H Hid H0 Ws HT Hd HK HL Hr v M G s Hs HM Hv _.
  destruct (HL s (has_K _ _ Hs)) as (Sl & Ss & Es).
  pose proof (wf_wft _ Ws) as Vs. pose proof (wf_wft _ (cs_labels _ _ _ _ _ H)) as Vl.
  assert (Esh : t_shape labels = sh) by apply (cm_labels _ _ _ _ _ _ _ _ (cs_match _ _ _ _ _ H)).
  apply (acc_then _ _ s (fun s1 => st req M G s1 /\ stored KI s1 labels /\ forall idx, inb sh idx -> ielem s1 labels idx = lab idx)).
  { apply nd_acc, runs_runs_nd. eapply runs_weaken; [apply (copy_int_runs src labels s); assumption|]. intros s1 Ht [R1 R2]. split; [|split].
    - destruct Hs as [Hk Hx]. split; [apply (HK s s1); assumption|]. intros x Ux. destruct (Hx x Ux) as [Sx Vx]. split; [apply (tinv_stored s s1 KF); assumption|].
      intros f Hf idx Hi. rewrite <- (Vx f Hf) by assumption. apply (frame_elem [labels]); [apply wf_wft, UW; assumption|assumption| |assumption].
      intros t [<-|[]]. apply disj_sym. apply (cs_disj _ _ _ _ _ H). assumption.
    - apply (tinv_stored s s1 KI); assumption.
    - intros idx Hi. rewrite R1 by (rewrite Esh; assumption). apply Es. assumption. }
  intros s1 _ (S1 & Sl1 & El1). eapply acc_weaken; [apply (ce_step o lid labels lab n sh a L0 v M G s1 H Sl1 El1 Hr S1)|].
  - rewrite HM; assumption.
  - assumption.
  - intros s' _ (M' & G' & Q1 & Q2 & Q3 & Q4 & Q5 & Q6 & _). exists M', G'. repeat (split; [assumption|]). assumption.
Qed.
Lemma ce_gradient_s o lid labels lab n sh (a L0 : R) : ce_shape o lid labels n sh -> (forall idx, inb sh idx -> (0 <= lab idx < n)%Z) ->
  gradient_of (vshape o) (fun _ => True) (fun v => L0 + ce_loss a n sh lab v) (fun v i => match i with l :: idx => ce_grad a n lab v l idx | [] => 0 end).
Proof.
  intros H Hr. destruct (cm_src _ _ _ _ _ _ _ _ (cs_match _ _ _ _ _ H)) as [Es _]. unfold vshape. rewrite Es.
  assert (P : pos (n :: sh)). { rewrite <- Es. apply wf_ps, wf_wft, UW. apply (cs_o _ _ _ _ _ H). }
  inversion P; subst. intros c c' t0 Hd Hc. evar_last.
  - apply (is_derive_plus (K := R_AbsRing) (V := R_NormedModule)); [apply (is_derive_const (K := R_AbsRing) (V := R_NormedModule))|].
    apply (ce_gradient a n sh lab ltac:(assumption) ltac:(assumption) Hr c c' t0 I Hc).
  - match goal with |- plus _ ?y = _ => exact (Rplus_0_l y) end.
Qed.
Lemma ce_gradient_o o lid labels lab n sh (a L0 : R) : ce_ok o lid labels lab n sh ->
  gradient_of (vshape o) (fun _ => True) (fun v => L0 + ce_loss a n sh lab v) (fun v i => match i with l :: idx => ce_grad a n lab v l idx | [] => 0 end).
Proof. intros H. apply (ce_gradient_s o lid labels lab n sh a L0 (ce_ok_shape _ _ _ _ _ _ H)). apply (co_range _ _ _ _ _ _ H). Qed.
End Ce.
