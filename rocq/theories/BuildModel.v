(** * The tensors of a built model as an environment; order of the layers *)
From Coq Require Import Reals Lra FunctionalExtensionality Sorted.
From Verif Require Import Base Spec Geometry Traits TraitsProofs Runtime Ops RealOps TensorSem ElemGeneric Concrete Axis SliceGeo Sequence XReals MatOps CrossEntropy XTriples HasRuns TapeMath Tape PyLayers PyModels BuildEnv.
Local Close Scope R_scope.
Local Open Scope list_scope.
Local Open Scope Z_scope.

(** ** Tensors which no layer writes *)
(** [CStored t]: integers, whatever they are *)
Inductive const := CInt (t : tensor) (f : list Z -> Z) | CBool (t : tensor) (f : list Z -> bool) | CStored (t : tensor) | CReal (t : tensor) (f : list Z -> R).
Definition c_tensor (c : const) : tensor := match c with CInt t _ => t | CBool t _ => t | CStored t => t | CReal t _ => t end.
Definition c_holds (s : store XR) (c : const) : Prop :=
  match c with
  | CInt t f => stored KI s t /\ forall idx, inb (t_shape t) idx -> ielem s t idx = f idx
  | CBool t f => stored KB s t /\ forall idx, inb (t_shape t) idx -> belem s t idx = f idx
  | CStored t => stored KI s t
  | CReal t f => stored KF s t /\ forall idx, inb (t_shape t) idx -> elem s t idx = Fin (f idx)
  end.
Lemma frame_belem ts (s s' : store XR) t idx : wft t -> inb (t_shape t) idx -> (forall t', In t' ts -> disj t t') -> frame ts s s' ->
  belem s' t idx = belem s t idx.
Proof.
  intros Ht Hi Hd Hf. unfold belem. rewrite (frame_same ts s s' t Hf Hd); [reflexivity|]. apply th_In; [assumption|apply etile_bound; assumption].
Qed.
Lemma c_frame (s s' : store XR) c u : wf_tensor (c_tensor c) -> disj (c_tensor c) u -> tinv s s' -> frame [u] s s' -> c_holds s c -> c_holds s' c.
Proof.
  intros W D T F. assert (D' : forall t', In t' [u] -> disj (c_tensor c) t') by (intros t' [<-|[]]; assumption).
  destruct c as [t f|t f|t|t f]; cbn [c_holds c_tensor] in *; [intros [H1 H2]|intros [H1 H2]|intros H1; eapply tinv_stored; eassumption|intros [H1 H2]]; (split; [eapply tinv_stored; eassumption|]); intros idx Hi.
  - rewrite (frame_ielem [u] s s') by (assumption || apply wf_wft; assumption). auto.
  - rewrite (frame_belem [u] s s') by (assumption || apply wf_wft; assumption). auto.
  - rewrite (frame_elem [u] s s') by (assumption || apply wf_wft; assumption). auto.
Qed.

(** ** The environment *)
Record benv_ok (b : build) (cs : list const) : Prop := {
  be_wf : forall x t, b_mem b x = Some t -> wf_tensor t;
  be_disj : forall x y t u, b_mem b x = Some t -> b_mem b y = Some u -> x <> y -> disj t u;
  be_cwf : forall c, In c cs -> wf_tensor (c_tensor c);
  be_cdisj : forall c x t, In c cs -> b_mem b x = Some t -> disj (c_tensor c) t
}.
Section Benv.
Variables (b : build) (cs : list const).
Hypothesis H : benv_ok b cs.
Definition bU (x : gvar) : Prop := b_mem b x <> None.
Lemma bU_inv x : bU x -> exists t, b_mem b x = Some t /\ bt b x = t.
Proof. unfold bU, bt. destruct (b_mem b x) as [t|]; [eauto|congruence]. Qed.
Lemma b_UW x : bU x -> wf_tensor (bt b x).
Proof. intros Hx. destruct (bU_inv x Hx) as (t & E & ->). eapply be_wf; eassumption. Qed.
Lemma b_UD x y : bU x -> bU y -> x <> y -> disj (bt b x) (bt b y).
Proof. intros Hx Hy Hn. destruct (bU_inv x Hx) as (t & E & ->), (bU_inv y Hy) as (u & E' & ->). eapply be_disj; eassumption. Qed.
Definition bK (s : store XR) : Prop := Forall (c_holds s) cs.
Lemma b_UK x (s s' : store XR) : bU x -> tinv s s' -> frame [bt b x] s s' -> bK s -> bK s'.
Proof.
  intros Hx T F. destruct (bU_inv x Hx) as (t & E & Et). rewrite Et in F. unfold bK. rewrite !Forall_forall. intros HK c Hc.
  eapply c_frame; [eapply be_cwf; eassumption|eapply be_cdisj; eassumption|exact T|exact F|apply HK; assumption].
Qed.
Definition benv : env := {| A := bt b; U := bU; K := bK; UW := b_UW; UD := b_UD; UK := b_UK |}.
Lemma hast_U x sh ba : hast b x sh ba -> bU x /\ t_shape (bt b x) = sh /\ t_base (bt b x) = ba.
Proof. intros (t & E & T1 & T2 & _). unfold bU, bt. rewrite E. repeat split; [discriminate|assumption|assumption]. Qed.
End Benv.

(** ** Order *)
(** outputs in increasing order, and inputs before outputs *)
Lemma sorted_lt (x y : nat) l : StronglySorted lt (x :: l) -> In y l -> (x < y)%nat.
Proof. intros Hs Hy. inversion Hs as [|? ? _ HF]; subst. rewrite Forall_forall in HF. auto. Qed.
Lemma ordered_sorted (ls : list mlayer) (ns : list nat) :
  StronglySorted lt (outs ls) ->
  (forall l i, In l ls -> In i (ml_ins l) -> In i ns \/ (In i (outs ls) /\ (i < ml_out l)%nat)) ->
  (forall n, In n ns -> ~ In n (outs ls)) -> ordered ls ns.
Proof.
  revert ns. induction ls as [|l ls IH]; intros ns HS HI HD; cbn [ordered]; [exact I|]. cbn [outs map] in *.
  split; [|split].
  - intros j Hj. destruct (HI l (inp l j) (or_introl eq_refl) (nth_In _ _ Hj)) as [Hn|[Ho Hl]]; [assumption|].
    exfalso. destruct Ho as [Ho|Ho]; [lia|]. assert (ml_out l < inp l j)%nat by (eapply sorted_lt; eassumption). lia.
  - intros Hc. apply (HD _ Hc). left; reflexivity.
  - apply IH.
    + inversion HS; assumption.
    + intros l' i Hl' Hi. destruct (HI l' i (or_intror Hl') Hi) as [Hn|[Ho Hl]]; [left; right; assumption|].
      destruct Ho as [Ho|Ho]; [left; left; assumption|right; split; assumption].
    + intros m [<-|Hm] Hc; [|apply (HD m Hm); right; assumption].
      assert (ml_out l < ml_out l)%nat by (eapply sorted_lt; eassumption). lia.
Qed.

(** Evaluation solves the equations of the layers. *)
Lemma eval_other ls e n : ~ In n (outs ls) -> eval ls e n = e n.
Proof.
  revert e. induction ls as [|l ls IH]; intros e Hn; [reflexivity|]. cbn [eval]. rewrite IH by (intros C; apply Hn; right; assumption).
  unfold fire. destruct (Nat.eq_dec n (ml_out l)) as [->|]; [exfalso; apply Hn; left; reflexivity|reflexivity].
Qed.
Definition reads_inputs (l : mlayer) : Prop := forall vs vs', (forall j, (j < arity l)%nat -> vs j = vs' j) -> ml_F l vs = ml_F l vs' /\ (ml_D l vs -> ml_D l vs').
Lemma eval_fix ls ns e : ordered ls ns -> Forall reads_inputs ls -> forall l, In l ls ->
  eval ls e (ml_out l) = ml_F l (args l (eval ls e)).
Proof.
  revert ns e. induction ls as [|l ls IH]; intros ns e HO HF l' Hl'; [destruct Hl'|]. destruct HO as (H1 & H2 & H3). inversion HF as [|? ? F1 F2]; subst. cbn [eval].
  destruct Hl' as [<-|Hl']; [|eapply IH; eassumption].
  assert (Ho : ~ In (ml_out l) (outs ls)) by (eapply ordered_fresh; [exact H3|left; reflexivity]).
  rewrite eval_other by assumption. unfold fire at 1. destruct (Nat.eq_dec (ml_out l) (ml_out l)) as [_|C]; [|congruence].
  apply F1. intros j Hj. unfold args. rewrite eval_other by (eapply ordered_fresh; [exact H3|right; apply H1; assumption]).
  unfold fire. destruct (Nat.eq_dec (inp l j) (ml_out l)) as [C|]; [|reflexivity]. exfalso. apply H2. rewrite <- C. apply H1. assumption.
Qed.
Lemma dom_fix ls ns e : ordered ls ns -> Forall reads_inputs ls -> (forall l, In l ls -> ml_D l (args l (eval ls e))) -> dom ls e.
Proof.
  revert ns e. induction ls as [|l ls IH]; intros ns e HO HF HD; [exact I|]. destruct HO as (H1 & H2 & H3). inversion HF as [|? ? F1 F2]; subst. cbn [dom eval] in *.
  split; [|eapply IH; [exact H3|assumption|intros l' Hl'; apply HD; right; assumption]].
  specialize (HD l (or_introl eq_refl)). refine (proj2 (F1 (args l (eval ls (fire l e))) (args l e) _) HD).
  intros j Hj. unfold args. rewrite eval_other by (eapply ordered_fresh; [exact H3|right; apply H1; assumption]).
  unfold fire. destruct (Nat.eq_dec (inp l j) (ml_out l)) as [C|]; [|reflexivity]. exfalso. apply H2. rewrite <- C. apply H1. assumption.
Qed.

(** ** The tensors of the loss *)
Lemma gen_ce_ok lo o V sh ba b : binv lo b -> tfree (lid b) b -> hast b (Val o) (V :: sh) (V :: ba) -> fit (V :: sh) (V :: ba) ->
  okp (gen_cross_entropy o b) (fun '(labels, b') => binv lo b' /\ ext b b' /\ b_n b' = b_n b /\ b_layers b' = b_layers b /\ b_acts b' = b_acts b /\
    wf_tensor labels /\ tens labels sh ba /\ (forall k, In k (tile_handles labels) -> lo <= k < b_next b') /\ (forall x t, b_mem b' x = Some t -> disj labels t) /\
    hast b' (Tmp (lid b) 0) [] [] /\ hast b' (Tmp (lid b) 1) (2 :: sh) (2 :: ba) /\ hast b' (Tmp (lid b) 2) sh ba /\ tfree (S (lid b)) b').
Proof.
  intros [i1 i2 i3 i4 i5] Ht Ho Hf. destruct (hast_shape _ _ _ _ Ho) as (E1 & E2 & E3). unfold gen_cross_entropy. rewrite E1, E2.
  change (sl_from 1 (V :: sh)) with sh. change (sl_from 1 (V :: ba)) with ba. cbv zeta.
  assert (Hf' := Hf). destruct Hf' as (F1 & F2 & F3). inversion F2 as [|? ? P1 P2]; subst. inversion F3 as [|? ? Q1 Q2]; subst. rewrite !zlen_cons in F1.
  assert (FS : fit sh ba) by (split; [lia|split; assumption]).
  assert (FM : fit (2 :: sh) (2 :: ba)) by (split; [rewrite !zlen_cons; lia|split; constructor; (lia || assumption)]).
  assert (F0 : fit [] []) by (split; [reflexivity|split; constructor]).
  assert (G1 : prodZ (gridZ (V :: sh) (V :: ba)) = prodZ (gridZ sh ba)).
  { change (gridZ (V :: sh) (V :: ba)) with ((V + V - 1) / V :: gridZ sh ba). cbn [prodZ].
    replace ((V + V - 1) / V) with 1; [lia|]. apply Z.div_unique with (r := V - 1); lia. }
  assert (G2 : prodZ (gridZ (2 :: sh) (2 :: ba)) = prodZ (gridZ sh ba)).
  { change (gridZ (2 :: sh) (2 :: ba)) with (1 :: gridZ sh ba). cbn [prodZ]. lia. }
  eapply okp_bind; [apply (mk_ok lo sh ba (fun _ => bdistr b o) b); [exact FS|rewrite E3; exact G1|assumption]|].
  intros [labels b1] (Wl & Tl & Rl & M1 & N1 & n1 & l1 & a1).
  assert (L1 : lid b1 = lid b) by (unfold lid; rewrite l1; reflexivity). rewrite L1.
  eapply okp_bind.
  { apply (alloc_ok lo (Tmp (lid b) 1) (2 :: sh) (2 :: ba) (fun _ => bdistr b o) b1); rewrite ?M1.
    - lia. - assumption. - intros x t h Hx Hh. specialize (i3 x t h Hx Hh). lia. - assumption.
    - apply Ht. reflexivity. - assumption. - rewrite E3, G1. symmetry. exact G2. }
  intros b2 ([a2 w2 r2 d2 e2 o2 n2 l2 c2 nw2 m2] & T2). assert (L2 : lid b2 = lid b) by (unfold lid in *; rewrite l2; assumption). rewrite L2.
  eapply okp_bind.
  { apply (alloc_ok lo (Tmp (lid b) 0) [] [] (fun _ => [0]) b2); try assumption; [|reflexivity].
    rewrite o2 by congruence. rewrite M1. apply Ht. reflexivity. }
  intros b3 ([a3 w3 r3 d3 e3 o3 n3 l3 c3 nw3 m3] & T3). assert (L3 : lid b3 = lid b) by (unfold lid in *; rewrite l3; assumption). rewrite L3.
  eapply okp_bind.
  { apply (alloc_ok lo (Tmp (lid b) 2) sh ba (fun _ => bdistr b o) b3); try assumption; [|rewrite E3; exact G1].
    rewrite o3, o2 by congruence. rewrite M1. apply Ht. reflexivity. }
  intros b4 ([a4 w4 r4 d4 e4 o4 n4 l4 c4 nw4 m4] & T4). cbn [okp].
  split; [|split; [|split; [|split; [|split; [|split; [|split; [|split; [|split; [|split; [|split]]]]]]]]]].
  - split; try assumption. intros k Hk. rewrite !o4, !o3, !o2, M1 by congruence. apply i5. rewrite <- n1, <- n2, <- n3, <- n4. assumption.
  - intros x t Hx. apply e4, e3, e2. rewrite M1. assumption.
  - rewrite n4, n3, n2. assumption.
  - rewrite l4, l3, l2. assumption.
  - rewrite c4, c3, c2. assumption.
  - assumption.
  - assumption.
  - intros k Hk. specialize (Rl k Hk). lia.
  - intros x t Hx h H1 H2. specialize (Rl h H1). destruct (gvar_dec x (Tmp (lid b) 2)) as [->|Q4].
    { specialize (nw4 t h Hx H2). lia. }
    rewrite o4 in Hx by assumption. destruct (gvar_dec x (Tmp (lid b) 0)) as [->|Q3].
    { specialize (nw3 t h Hx H2). lia. }
    rewrite o3 in Hx by assumption. destruct (gvar_dec x (Tmp (lid b) 1)) as [->|Q2'].
    { specialize (nw2 t h Hx H2). lia. }
    rewrite o2, M1 in Hx by assumption. specialize (i3 x t h Hx H2). lia.
  - eapply hast_ext; [exact e4|exact T3].
  - eapply hast_ext; [exact e4|]. eapply hast_ext; [exact e3|exact T2].
  - split; [exact T4|].
    intros k i Hk. rewrite o4, o3, o2, M1 by (intros C; inversion C; lia). apply Ht. lia.
Qed.
