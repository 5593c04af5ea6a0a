(** * C54-C56: the Adam optimizers, training with them *)
From Coq Require Import Reals Lra FunctionalExtensionality.
From Coquelicot Require Import Coquelicot.
From Verif Require Import Base Spec Geometry Traits TraitsProofs Runtime Ops RealOps TensorSem OneOut ElemOps Formulas PropDeriv Axis Sequence XReals NdRuns AnyRuns RSum MatOps PropElem PropElem2 PropElemR XTriples HasRuns TapeMath VjpMath Tape PyLayers PyLinear PySimple PyNorm Backprop Frob CeLoss PropLayers PropModel PyTrain PropTrain PyAdam.
Local Close Scope Z_scope.
Local Open Scope R_scope.

(** The optimizers: Adam (adam.py) without amsgrad, FusedAdam (adam.py) and FusedAdamW (adamw.py)
    with an optional warm-up (start_lr, full_lr_iter). *)
Inductive adam_kind := Adam | FusedAdam (warm : option (R * Z)) | FusedAdamW (warm : option (R * Z)).
Definition finw (warm : option (R * Z)) : option (XR * Z) := match warm with Some (a, k) => Some (Fin a, k) | None => None end.
Definition adam_tasks (k : adam_kind) (lr b1 b2 wd eps : R) (it : Z) (ps : list (moments * (tensor * tensor * tensor))) : res (list (task XR)) :=
  match k with
  | Adam => adam_all (Fin lr) (Fin b1) (Fin b2) (Fin wd) (Fin eps) false it ps
  | FusedAdam w => fused_adam_all (Fin lr) (Fin b1) (Fin b2) (Fin wd) (Fin eps) (finw w) it ps
  | FusedAdamW w => fused_adamw_all (Fin lr) (Fin b1) (Fin b2) (Fin wd) (Fin eps) (finw w) it ps
  end.
(** learning rate of step [n]; is the weight decay decoupled? *)
Definition kind_lr (k : adam_kind) (lr : R) (n : nat) : R := match k with Adam => lr | FusedAdam w | FusedAdamW w => warm_lr lr w n end.
Definition kind_dec (k : adam_kind) : bool := match k with FusedAdamW _ => true | _ => false end.

Section PropAdam.
Context {E : env} (req : nat -> bool).

Section Kind.
Variables (kd : adam_kind) (lr b1 b2 wd eps : R).
(** New moments and new value of one element, step [n]. *)
Definition step_m (p g m : R) : R := ad_m b1 m (ad_g wd (kind_dec kd) p g).
Definition step_v (p g v : R) : R := ad_v b2 v (ad_g wd (kind_dec kd) p g).
Definition step_p (n : nat) (p g m v : R) : R :=
  ad_new (kind_lr kd lr n) b1 b2 eps n (ad_p (kind_lr kd lr n) wd (kind_dec kd) p) (step_m p g m) (step_v p g v).

Definition adam_params (k1 k2 k3 : nat) (ps : list nat) := map (fun p => (node req p, (A (Tmp k1 p), A (Tmp k2 p), A (Tmp k3 p)))) ps.
Definition adam_one_tasks (n : nat) (k1 k2 k3 p : nat) : res (list (task XR)) :=
  match kd with
  | Adam => adam_one (Fin lr) (Fin b1) (Fin b2) (Fin wd) (Fin eps) false (Z.of_nat n) (node req p) (A (Tmp k1 p)) (A (Tmp k2 p)) (A (Tmp k3 p))
  | FusedAdam w => adam_step_async (Z.of_nat n) (Fin b1) (Fin b2) (Fin eps) (Fin (warm_lr lr w n)) (Fin wd) (A (Grad p)) (A (Tmp k1 p)) (A (Tmp k2 p)) (A (Val p))
  | FusedAdamW w => adamw_step_async (Z.of_nat n) (Fin b1) (Fin b2) (Fin eps) (Fin (warm_lr lr w n)) (Fin wd) (A (Grad p)) (A (Tmp k1 p)) (A (Tmp k2 p)) (A (Val p))
  end.
Lemma adam_tasks_eq n k1 k2 k3 ps :
  adam_tasks kd lr b1 b2 wd eps (Z.of_nat n) (adam_params k1 k2 k3 ps) = pyseq (map (adam_one_tasks n k1 k2 k3) ps).
Proof.
  unfold adam_tasks, adam_one_tasks, adam_params. destruct kd as [|w|w].
  - unfold adam_all. rewrite map_map. reflexivity.
  - unfold fused_adam_all, finw. rewrite map_map, x_warmup. reflexivity.
  - unfold fused_adamw_all, finw. rewrite map_map, x_warmup. reflexivity.
Qed.

Lemma kind_one_has n k1 k2 k3 p M s V G m v : hyper b1 b2 eps -> (1 <= n)%nat -> k1 <> k2 -> k1 <> k3 -> k2 <> k3 ->
  adam_param_ok req k1 k2 k3 false p -> has M s -> M (Val p) = Some (fin V) -> M (Grad p) = Some (fin G) ->
  (forall i, 0 <= v i) -> ad_held k1 k2 n p m v M ->
  runs_nd (adam_one_tasks n k1 k2 k3 p) s
    (fun s' => exists M', has M' s' /\
      M' (Val p) = Some (fin (fun i => step_p n (V i) (G i) (m i) (v i))) /\
      M' (Tmp k1 p) = Some (fin (fun i => step_m (V i) (G i) (m i))) /\ M' (Tmp k2 p) = Some (fin (fun i => sqrt (step_v (V i) (G i) (v i)))) /\ ad_keep k1 k2 k3 p M M').
Proof.
  intros Hh Hn H12 H13 H23 Hp HM Ev Eg Hv Hheld. unfold adam_one_tasks, step_p, step_m, step_v. destruct kd as [|w|w]; cbn [kind_lr kind_dec].
  - unfold ad_g, ad_p. apply (adam_one_has req lr b1 b2 wd eps n k1 k2 k3 p Hh Hn H12 H13 H23 M s V G m v); assumption.
  - apply (fused_has req b1 b2 wd eps n k1 k2 k3 p Hh Hn H12 H13 H23 false (warm_lr lr w n) M s V G m v _ _ _ _ (C29_adam_step (T := XR) (Z.of_nat n) (Fin b1) (Fin b2) (Fin eps) (Fin (warm_lr lr w n)) (Fin wd))); try assumption; reflexivity.
  - apply (fused_has req b1 b2 wd eps n k1 k2 k3 p Hh Hn H12 H13 H23 true (warm_lr lr w n) M s V G m v _ _ _ _ (C29_adamw_step (T := XR) (Z.of_nat n) (Fin b1) (Fin b2) (Fin eps) (Fin (warm_lr lr w n)) (Fin wd))); try assumption; reflexivity.
Qed.

Lemma kind_all_has n k1 k2 k3 (V G m v : nat -> arr) : hyper b1 b2 eps -> (1 <= n)%nat -> k1 <> k2 -> k1 <> k3 -> k2 <> k3 ->
  forall ps M s, NoDup ps -> Forall (adam_param_ok req k1 k2 k3 false) ps -> has M s ->
  (forall p, In p ps -> M (Val p) = Some (fin (V p)) /\ M (Grad p) = Some (fin (G p)) /\ (forall i, 0 <= v p i) /\ ad_held k1 k2 n p (m p) (v p) M) ->
  runs_nd (adam_tasks kd lr b1 b2 wd eps (Z.of_nat n) (adam_params k1 k2 k3 ps)) s (fun s' => exists M', has M' s' /\
    (forall p, In p ps -> M' (Val p) = Some (fin (fun i => step_p n (V p i) (G p i) (m p i) (v p i))) /\
       M' (Tmp k1 p) = Some (fin (fun i => step_m (V p i) (G p i) (m p i))) /\ M' (Tmp k2 p) = Some (fin (fun i => sqrt (step_v (V p i) (G p i) (v p i))))) /\
    (forall x, (forall p, In p ps -> x <> Val p /\ x <> Grad p /\ x <> Tmp k1 p /\ x <> Tmp k2 p /\ x <> Tmp k3 p) -> M' x = M x)).
Proof.
  intros Hh Hn H12 H13 H23 ps M s. rewrite adam_tasks_eq. revert M s. induction ps as [|p ps IH]; intros M s Hnd Hp HM Hv.
  - apply py_nil. exists M. split; [assumption|]. split; [intros p []|reflexivity].
  - inversion Hnd as [|? ? Hn1 Hn2]; subst. inversion Hp as [|? ? Hp1 Hp2]; subst. cbn [map]. destruct (Hv p (or_introl eq_refl)) as (E1 & E2 & E3 & E4).
    eapply py_cons; [apply (kind_one_has n k1 k2 k3 p M s (V p) (G p) (m p) (v p) Hh Hn H12 H13 H23 Hp1 HM E1 E2 E3 E4)|].
    intros s1 (M1 & H1 & F1 & F2 & F3 & F4). eapply nd_weaken; [apply (IH M1 s1 Hn2 Hp2 H1)|].
    + intros q Hq. assert (Hqp : q <> p) by (intros ->; contradiction). destruct (Hv q (or_intror Hq)) as (Q1 & Q2 & Q3 & [Q4 Q5]).
      split; [rewrite F4 by congruence; assumption|]. split; [rewrite F4 by congruence; assumption|]. split; [assumption|].
      split; [assumption|]. intros Hne. destruct (Q5 Hne) as [Q6 Q7]. split; rewrite F4 by congruence; assumption.
    + cbv beta. intros s2 _ (M2 & H2 & G1 & G2). exists M2. split; [assumption|]. split.
      * intros q [<-|Hq]; [|apply G1; assumption].
        assert (Hsep : forall q, In q ps -> q <> p) by (intros q Hq ->; contradiction).
        split; [|split]; (rewrite G2; [assumption|]); intros q Hq; specialize (Hsep q Hq); repeat split; congruence.
      * intros x Hx. rewrite G2 by (intros q Hq; apply Hx; right; assumption). destruct (Hx p (or_introl eq_refl)) as (X1 & X2 & X3 & X4 & X5). apply F4; assumption.
Qed.

(** ** C54: one step of the optimizer *)
Theorem C54_adam_step n k1 k2 k3 (ps ns : list nat) (V G m v : nat -> arr) (s : store XR) :
  hyper b1 b2 eps -> (1 <= n)%nat -> NoDup [k1; k2; k3] -> NoDup ps -> Forall (adam_param_ok req k1 k2 k3 false) ps -> allocated s ->
  (forall p, In p ps -> value s p (V p) /\ gradient s p (G p) /\ (forall i, 0 <= v p i)) ->
  (n = 1%nat -> forall p i, In p ps -> m p i = 0 /\ v p i = 0) ->
  (n <> 1%nat -> forall p, In p ps -> temp s k1 p (m p) /\ temp s k2 p (fun i => sqrt (v p i))) ->
  (forall q, In q ns -> U (Val q) /\ value s q (V q)) ->
  runs_nd (adam_tasks kd lr b1 b2 wd eps (Z.of_nat n) (adam_params k1 k2 k3 ps)) s (fun s' =>
    (forall p, In p ps ->
       value s' p (fun i => step_p n (V p i) (G p i) (m p i) (v p i)) /\
       temp s' k1 p (fun i => step_m (V p i) (G p i) (m p i)) /\
       temp s' k2 p (fun i => sqrt (step_v (V p i) (G p i) (v p i)))) /\
    (forall q, In q ns -> ~ In q ps -> value s' q (V q))).
Proof.
  intros Hh Hn Hk Hnd Hp [HK HS] Hv H0 H1 Hns.
  assert (Hk' : k1 <> k2 /\ k1 <> k3 /\ k2 <> k3).
  { inversion Hk as [|? ? K1 Hk2]; subst. inversion Hk2 as [|? ? K2 Hk3]; subst. cbn in *. repeat split; intros ->; tauto. }
  destruct Hk' as (H12 & H13 & H23). pose proof (proj1 (Forall_forall _ _) Hp) as Hpp.
  set (M := fun x : gvar => match x with
    | Val q => if in_dec Nat.eq_dec q (ps ++ ns) then Some (fin (V q)) else None
    | Grad q => if in_dec Nat.eq_dec q ps then Some (fin (G q)) else None
    | Tmp k q => if Nat.eq_dec n 1 then None else if in_dec Nat.eq_dec q ps then
        if Nat.eq_dec k k1 then Some (fin (m q)) else if Nat.eq_dec k k2 then Some (fin (fun i => sqrt (v q i))) else None else None end).
  assert (HM : has M s).
  { split; [assumption|]. intros x Hx. split; [auto|]. intros f Hf. destruct x as [q|q|k q]; cbn [M] in Hf.
    - destruct (in_dec Nat.eq_dec q (ps ++ ns)) as [Hi|]; [|discriminate]. inversion Hf; subst. apply in_app_or in Hi as [Hi|Hi]; [apply Hv|apply Hns]; assumption.
    - destruct (in_dec Nat.eq_dec q ps) as [Hi|]; [inversion Hf; subst; apply Hv; assumption|discriminate].
    - destruct (Nat.eq_dec n 1) as [|Hne]; [discriminate|]. destruct (in_dec Nat.eq_dec q ps) as [Hi|]; [|discriminate].
      destruct (H1 Hne q Hi) as [T1 T2].
      destruct (Nat.eq_dec k k1) as [->|]; [inversion Hf; subst; assumption|]. destruct (Nat.eq_dec k k2) as [->|]; [inversion Hf; subst; assumption|discriminate]. }
  eapply nd_weaken; [apply (kind_all_has n k1 k2 k3 V G m v Hh Hn H12 H13 H23 ps M s Hnd Hp HM)|].
  - intros p Hi. cbn [M]. destruct (in_dec Nat.eq_dec p (ps ++ ns)) as [_|C]; [|exfalso; apply C, in_or_app; tauto].
    split; [reflexivity|]. split; [destruct (in_dec Nat.eq_dec p ps); [reflexivity|contradiction]|]. split; [apply Hv; assumption|]. split.
    + intros En. split; intros i; apply (H0 En p i Hi).
    + intros Hne. cbn [M]. destruct (Nat.eq_dec n 1); [contradiction|]. destruct (in_dec Nat.eq_dec p ps); [|contradiction].
      destruct (Nat.eq_dec k1 k1); [|congruence]. destruct (Nat.eq_dec k2 k1); [congruence|]. destruct (Nat.eq_dec k2 k2); [|congruence]. split; reflexivity.
  - intros s' _ (M' & [_ H'] & Q1 & Q2). split.
    + intros p Hi. destruct (Hpp p Hi) as [[Uv _] _ [Um _] [Us _] _]. destruct (Q1 p Hi) as (R1 & R2 & R3).
      split; [exact (proj2 (H' (Val p) Uv) _ R1)|]. split; [exact (proj2 (H' (Tmp k1 p) Um) _ R2)|exact (proj2 (H' (Tmp k2 p) Us) _ R3)].
    + intros q Hi Hq. apply (proj2 (H' (Val q) (proj1 (Hns q Hi)))). rewrite Q2.
      * cbn [M]. destruct (in_dec Nat.eq_dec q (ps ++ ns)) as [_|C]; [reflexivity|exfalso; apply C, in_or_app; tauto].
      * intros p Hp'. assert (q <> p) by (intros ->; contradiction). repeat split; congruence.
Qed.

(** ** C55: training with Adam *)
(** One step on the function [loss] of the leaves, step [n]: first moments [m], second [v]. *)
Definition adam_update (ps : list nat) (n : nat) (loss : (nat -> arr) -> R) (m v e m' v' e' : nat -> arr) : Prop :=
  exists g : nat -> arr,
    (forall p idx, In p ps -> inb (vshape p) idx -> is_derive (fun t => loss (vary e p idx t)) (e p idx) (g p idx)) /\
    (forall p, In p ps -> e' p = (fun i => step_p n (e p i) (g p i) (m p i) (v p i)) /\
       m' p = (fun i => step_m (e p i) (g p i) (m p i)) /\ v' p = (fun i => step_v (e p i) (g p i) (v p i))) /\
    (forall q, ~ In q ps -> e' q = e q).
Fixpoint adam_run (ls : list layer) (ps : list nat) (o xi : nat) (dat : nat -> arr) (n : nat) (batches : list (list (nat * nat))) (m v e m' v' e' : nat -> arr) : Prop :=
  match batches with
  | [] => m' = m /\ v' = v /\ e' = e
  | mbs :: rest => exists m1 v1 e1, adam_update ps n (batch_loss ls o xi dat mbs) m v e m1 v1 e1 /\ adam_run ls ps o xi dat (S n) rest m1 v1 e1 m' v' e'
  end.
Fixpoint adam_run_tasks (ls : list layer) (acts ps : list nat) (o lid xi did k1 k2 k3 : nat) (n : nat) (batches : list (list (nat * nat))) : res (list (task XR)) :=
  match batches with
  | [] => Ok []
  | mbs :: rest => then_ (train_batch (map (node req) ps) (map (node req) acts) (A (Tmp lid 0)) (A (Val xi)) (A (Tmp lid 1)) (map ly_py ls)
      (frob_calc (node req o) (A (Tmp lid 1)) (A (Tmp lid 0)) (A (Tmp lid 2)) (A (Tmp lid 3)))
      (map (fun mb => (A (Tmp did (fst mb)), A (Tmp did (snd mb)))) mbs)
      (adam_tasks kd lr b1 b2 wd eps (Z.of_nat n) (adam_params k1 k2 k3 ps)))
    (adam_run_tasks ls acts ps o lid xi did k1 k2 k3 (S n) rest)
  end.

(** Adam as an optimizer *)
Definition adam_known (ps : list nat) (k1 k2 : nat) (it : Z) (S : (nat -> arr) * (nat -> arr)) (k i : nat) : option arr :=
  if (it =? 1)%Z then None else if in_dec Nat.eq_dec i ps then
    if Nat.eq_dec k k1 then Some (fst S i) else if Nat.eq_dec k k2 then Some (fun j => sqrt (snd S i j)) else None else None.
Definition adam_inv (ps : list nat) (it : Z) (S : (nat -> arr) * (nat -> arr)) : Prop :=
  (1 <= it)%Z /\ (forall p i, In p ps -> 0 <= snd S p i) /\ (it = 1%Z -> forall p i, In p ps -> fst S p i = 0 /\ snd S p i = 0).
Definition adam_new (it : Z) (S : (nat -> arr) * (nat -> arr)) (e G : nat -> arr) (p : nat) : arr :=
  fun i => step_p (Z.to_nat it) (e p i) (G p i) (fst S p i) (snd S p i).
Definition adam_next (it : Z) (S : (nat -> arr) * (nat -> arr)) (e G : nat -> arr) : (nat -> arr) * (nat -> arr) :=
  (fun p i => step_m (e p i) (G p i) (fst S p i), fun p i => step_v (e p i) (G p i) (snd S p i)).

Lemma adam_opt_good ps k1 k2 k3 : hyper b1 b2 eps -> NoDup [k1; k2; k3] -> NoDup ps -> Forall (adam_param_ok req k1 k2 k3 false) ps ->
  opt_good ps [k1; k2; k3] _ (fun it => adam_tasks kd lr b1 b2 wd eps it (adam_params k1 k2 k3 ps)) (adam_known ps k1 k2) (adam_inv ps) adam_new adam_next.
Proof.
  intros Hh Hk Hnd Hp. pose proof (proj1 (Forall_forall _ _) Hp) as Hpp.
  assert (Hk' : k1 <> k2 /\ k1 <> k3 /\ k2 <> k3).
  { inversion Hk as [|? ? K1 Hk2]; subst. inversion Hk2 as [|? ? K2 Hk3]; subst. cbn in *. repeat split; intros ->; tauto. }
  destruct Hk' as (H12 & H13 & H23). split.
  - intros it S k i f. unfold adam_known. destruct (it =? 1)%Z; [discriminate|]. destruct (in_dec Nat.eq_dec i ps) as [Hi|]; [|discriminate].
    destruct (Hpp i Hi) as [_ _ [Um _] [Us _] _]. destruct (Nat.eq_dec k k1) as [->|]; [intros _; split; [left; reflexivity|assumption]|].
    destruct (Nat.eq_dec k k2) as [->|]; [intros _; split; [right; left; reflexivity|assumption]|discriminate].
  - intros it S e G (I1 & I2 & I3). split; [lia|]. split; [|lia]. intros p i Hi. apply ad_v_pos; [apply Hh|apply I2; assumption].
  - intros it S M s e G (I1 & I2 & I3) HM Hv Hkn. destruct (ex_intro (fun n => Z.to_nat it = n) _ eq_refl) as [n En']. assert (En : it = Z.of_nat n) by lia.
    assert (Hn1 : (1 <= n)%nat) by lia. unfold adam_new. rewrite En'. rewrite En at 1. eapply nd_weaken; [apply (kind_all_has n k1 k2 k3 e G (fst S) (snd S) Hh Hn1 H12 H13 H23 ps M s Hnd Hp HM)|].
    + intros p Hi. destruct (Hv p Hi) as [E1 E2]. split; [assumption|]. split; [assumption|]. split; [intros i; apply I2; assumption|]. split.
      * intros C. split; intros i; apply (I3 ltac:(lia) p i Hi).
      * intros C. split; apply Hkn; unfold adam_known; (destruct (Z.eqb_spec it 1); [lia|]); (destruct (in_dec Nat.eq_dec p ps); [|contradiction]).
        -- destruct (Nat.eq_dec k1 k1); [reflexivity|congruence].
        -- destruct (Nat.eq_dec k2 k1); [congruence|]. destruct (Nat.eq_dec k2 k2); [reflexivity|congruence].
    + cbv beta. intros s' _ (M' & H' & Q1 & Q2). exists M'. split; [assumption|]. split; [intros p Hi; apply (Q1 p Hi)|]. split; [|split].
      * intros q Hq. split; apply Q2; intros p Hi; assert (q <> p) by (intros ->; contradiction); repeat split; congruence.
      * intros k i Hki. apply Q2. intros p Hi. repeat split; try congruence; intros C; inversion C; subst; apply Hki; cbn; tauto.
      * intros k i f. unfold adam_known, adam_next. destruct (it + 1 =? 1)%Z; [discriminate|]. destruct (in_dec Nat.eq_dec i ps) as [Hi|]; [|discriminate].
        destruct (Q1 i Hi) as (_ & R1 & R2). destruct (Nat.eq_dec k k1) as [->|]; [intros Hf; inversion Hf; subst; exact R1|].
        destruct (Nat.eq_dec k k2) as [->|]; [intros Hf; inversion Hf; subst; exact R2|discriminate].
Qed.

(** The state between batches, before step [n]. *)
Record adam_ready (acts ns ps : list nat) (xi did k1 k2 : nat) (data : list (nat * nat)) (dat : nat -> arr) (n : nat) (m v e : nat -> arr) (s : store XR) : Prop := {
  ad_alloc : allocated s;
  ad_val : forall q, In q ns -> q <> xi -> value s q (e q);
  ad_mom : n <> 1%nat -> forall p, In p ps -> temp s k1 p (m p) /\ temp s k2 p (fun i => sqrt (v p i));
  ad_pos : forall p i, In p ps -> 0 <= v p i;
  ad_zero : n = 1%nat -> forall p i, In p ps -> m p i = 0 /\ v p i = 0;
  ad_data : forall i j, In (i, j) data -> temp s did i (dat i) /\ temp s did j (dat j);
  ad_grad : exists G, forall q, U (Grad q) -> req q = true -> ~ In q acts -> ~ In q ps -> gradient s q (G q)
}.

Theorem C55_adam_training ls acts ns ps o lid xi did k1 k2 k3 data dat batches n m v e s :
  hyper b1 b2 eps -> (1 <= n)%nat -> NoDup [k1; k2; k3] -> Forall (adam_param_ok req k1 k2 k3 false) ps ->
  setup_ok req ls acts ns ps o lid xi did [k1; k2; k3] data -> (forall mbs, In mbs batches -> incl mbs data) ->
  (forall done mbs rest m1 v1 e1 i j, batches = done ++ mbs :: rest -> adam_run ls ps o xi dat n done m v e m1 v1 e1 ->
     In (i, j) mbs -> dom (map ly_m ls) (with_input e1 xi (dat i))) ->
  adam_ready acts ns ps xi did k1 k2 data dat n m v e s ->
  runs_nd (adam_run_tasks ls acts ps o lid xi did k1 k2 k3 n batches) s (fun s' => exists m' v' e',
    adam_run ls ps o xi dat n batches m v e m' v' e' /\
    (forall q, In q ns -> q <> xi -> value s' q (e' q)) /\
    adam_ready acts ns ps xi did k1 k2 data dat (n + List.length batches) m' v' e' s').
Proof.
  intros Hh Hn Hk Hp HT Hi Hs [R1 R2 R3 R4 R5 R6 R7].
  assert (H12 : k1 <> k2) by (inversion Hk as [|? ? K1 _]; subst; intros ->; apply K1; left; reflexivity).
  pose proof (adam_opt_good ps k1 k2 k3 Hh Hk (su_nd _ _ _ _ _ _ _ _ _ _ _ HT) Hp) as HO.
  assert (Etasks : forall b k, adam_run_tasks ls acts ps o lid xi did k1 k2 k3 k b =
    opt_tasks req ps (fun it => adam_tasks kd lr b1 b2 wd eps it (adam_params k1 k2 k3 ps)) ls acts o lid xi did (Z.of_nat k) b).
  { induction b as [|mbs rest IH]; intros k; [reflexivity|]. cbn [adam_run_tasks opt_tasks]. rewrite IH. unfold opt_batch. replace (Z.of_nat (S k)) with (Z.of_nat k + 1)%Z by lia. reflexivity. }
  assert (Erun : forall b k S0 e0 S1 e1, opt_run ps _ adam_new adam_next ls o xi dat (Z.of_nat k) b S0 e0 S1 e1 -> adam_run ls ps o xi dat k b (fst S0) (snd S0) e0 (fst S1) (snd S1) e1).
  { induction b as [|mbs rest IH]; intros k S0 e0 S1 e1 Hr.
    - destruct Hr as [-> ->]. repeat split.
    - destruct Hr as (e2 & S2 & (g & U1 & U2 & U3 & U4) & Hr). exists (fst S2), (snd S2), e2. split.
      + exists g. split; [assumption|]. split; [|assumption]. intros p Hp'. rewrite U4. split; [|split; reflexivity]. rewrite (U2 p Hp'). unfold adam_new. rewrite Nat2Z.id. reflexivity.
      + apply IH. replace (Z.of_nat (S k)) with (Z.of_nat k + 1)%Z by lia. assumption. }
  (* every run of the specification from the start is one of the optimizer's runs *)
  assert (HR0 : opt_ready req ps _ (adam_known ps k1 k2) (adam_inv ps) acts ns xi did data dat (Z.of_nat n) e (m, v) s).
  { split; try assumption.
    - intros k i f. unfold adam_known. destruct (Z.eqb_spec (Z.of_nat n) 1) as [|Hne]; [discriminate|]. destruct (in_dec Nat.eq_dec i ps) as [Hin|]; [|discriminate].
      destruct (R3 ltac:(lia) i Hin) as [T1 T2]. cbn [fst snd].
      destruct (Nat.eq_dec k k1) as [->|]; [intros Hf; inversion Hf; subst; assumption|]. destruct (Nat.eq_dec k k2) as [->|]; [intros Hf; inversion Hf; subst; assumption|discriminate].
    - split; [lia|]. split; [assumption|]. intros C. apply R5. lia. }
  rewrite Etasks. eapply nd_weaken; [apply (training_any req ps [k1; k2; k3] _ _ _ _ _ _ ls acts ns o lid xi did data dat batches (Z.of_nat n) e (m, v) s HO HT Hi)|].
  - intros done mbs rest e1 S1 i j Eq Hrun Hij. apply (Hs done mbs rest (fst S1) (snd S1) e1 i j Eq (Erun _ _ _ _ _ _ Hrun) Hij).
  - exact HR0.
  - cbv beta. intros s' _ (e' & S' & Hrun & Hr). exists (fst S'), (snd S'), e'. split; [exact (Erun _ _ _ _ _ _ Hrun)|].
    destruct Hr as [Q1 Q2 Q3 (Q4 & Q5 & Q6) Q7 Q8]. split; [assumption|].
    unfold zlen in *. split; try assumption.
    + intros Hne p Hin. split; apply Q3; unfold adam_known; (destruct (Z.eqb_spec (Z.of_nat n + Z.of_nat (List.length batches)) 1); [lia|]);
        (destruct (in_dec Nat.eq_dec p ps); [|contradiction]).
      * destruct (Nat.eq_dec k1 k1); [reflexivity|congruence].
      * destruct (Nat.eq_dec k2 k1); [congruence|]. destruct (Nat.eq_dec k2 k2); [reflexivity|congruence].
    + intros C. apply Q6. lia.
Qed.
End Kind.

(** ** AMSGrad: the step of Adam(amsgrad=True) on one parameter.
    [w]: the running maximum of the second moment.  The step is that of AMSGrad with the learning
    rate divided by 1 - b2^n: adam.py:86 divides by the bias-correction factor that line 92
    multiplies by. *)
Theorem C56_amsgrad_as_coded lr b1 b2 wd eps n k1 k2 k3 p (V G m v w : arr) (s : store XR) :
  hyper b1 b2 eps -> (1 <= n)%nat -> NoDup [k1; k2; k3] -> adam_param_ok req k1 k2 k3 true p -> allocated s ->
  value s p V -> gradient s p G -> (forall i, 0 <= v i /\ 0 <= w i) ->
  (n = 1%nat -> forall i, m i = 0 /\ v i = 0 /\ w i = 0) ->
  (n <> 1%nat -> temp s k1 p m /\ temp s k2 p (fun i => sqrt (v i)) /\ temp s k3 p (fun i => sqrt (w i))) ->
  let g := fun i => G i + wd * V i in let w' := fun i => Rmax (w i) (ad_v b2 (v i) (g i)) in
  runs_nd (adam_all (Fin lr) (Fin b1) (Fin b2) (Fin wd) (Fin eps) true (Z.of_nat n) (adam_params k1 k2 k3 [p])) s (fun s' =>
    value s' p (fun i => ad_new (lr / (1 - b2 ^ n)) b1 b2 eps n (V i) (ad_m b1 (m i) (g i)) (w' i)) /\
    temp s' k1 p (fun i => ad_m b1 (m i) (g i)) /\ temp s' k2 p (fun i => sqrt (ad_v b2 (v i) (g i))) /\
    temp s' k3 p (fun i => sqrt (w' i))).
Proof.
  intros Hh Hn Hk Hp [HK HS] Hv HG Hpos H0 H1 g w'.
  assert (Hk' : k1 <> k2 /\ k1 <> k3 /\ k2 <> k3).
  { inversion Hk as [|? ? K1 Hk2]; subst. inversion Hk2 as [|? ? K2 Hk3]; subst. cbn in *. repeat split; intros ->; tauto. }
  destruct Hk' as (H12 & H13 & H23).
  set (M := fun x : gvar => if gvar_dec x (Val p) then Some (fin V) else if gvar_dec x (Grad p) then Some (fin G) else if Nat.eq_dec n 1 then None else
    if gvar_dec x (Tmp k1 p) then Some (fin m) else if gvar_dec x (Tmp k2 p) then Some (fin (fun i => sqrt (v i))) else if gvar_dec x (Tmp k3 p) then Some (fin (fun i => sqrt (w i))) else None).
  assert (HM : has M s).
  { split; [assumption|]. intros x Hx. split; [auto|]. intros f. unfold M.
    destruct (gvar_dec x (Val p)) as [->|]; [intros Hf; inversion Hf; subst; assumption|]. destruct (gvar_dec x (Grad p)) as [->|]; [intros Hf; inversion Hf; subst; assumption|].
    destruct (Nat.eq_dec n 1) as [|Hne]; [discriminate|]. destruct (H1 Hne) as (T1 & T2 & T3).
    destruct (gvar_dec x (Tmp k1 p)) as [->|]; [intros Hf; inversion Hf; subst; assumption|]. destruct (gvar_dec x (Tmp k2 p)) as [->|]; [intros Hf; inversion Hf; subst; assumption|].
    destruct (gvar_dec x (Tmp k3 p)) as [->|]; [intros Hf; inversion Hf; subst; assumption|discriminate]. }
  unfold adam_all, adam_params. cbn [map]. rewrite pyseq_1.
  assert (Mv : M (Val p) = Some (fin V)) by (unfold M; destruct (gvar_dec (Val p) (Val p)); [reflexivity|congruence]).
  assert (Mg : M (Grad p) = Some (fin G)) by (unfold M; destruct (gvar_dec (Grad p) (Val p)); [discriminate|]; destruct (gvar_dec (Grad p) (Grad p)); [reflexivity|congruence]).
  assert (Mt : n <> 1%nat -> M (Tmp k1 p) = Some (fin m) /\ M (Tmp k2 p) = Some (fin (fun i => sqrt (v i))) /\ M (Tmp k3 p) = Some (fin (fun i => sqrt (w i)))).
  { intros Hne. unfold M. repeat match goal with |- context [gvar_dec ?a ?b] => destruct (gvar_dec a b); [first [discriminate|congruence]|] | |- context [gvar_dec ?a ?a] => destruct (gvar_dec a a); [|congruence] end.
    destruct (Nat.eq_dec n 1); [contradiction|].
    split; [|split]; repeat match goal with |- context [gvar_dec ?a ?b] => destruct (gvar_dec a b); try first [discriminate|congruence] end; reflexivity. }
  eapply nd_weaken; [apply (adam_one_ams req lr b1 b2 wd eps n k1 k2 k3 p Hh Hn H12 H13 H23 M s V G m v w Hp HM Mv Mg)|].
  - intros i. apply Hpos.
  - intros i. apply Hpos.
  - split; [intros En; split; intros i; apply (H0 En i)|]. intros Hne. destruct (Mt Hne) as (T1 & T2 & _). split; assumption.
  - intros En i. apply (H0 En i).
  - intros Hne. apply (Mt Hne).
  - cbv beta. intros s' _ (M' & [_ H'] & R1 & R2 & R3 & R4 & _). destruct Hp as [[Uv _] _ [Um _] [Us _] Hx]. destruct (Hx eq_refl) as [Ux _].
    split; [exact (proj2 (H' (Val p) Uv) _ R1)|]. split; [exact (proj2 (H' (Tmp k1 p) Um) _ R2)|]. split; [exact (proj2 (H' (Tmp k2 p) Us) _ R3)|exact (proj2 (H' (Tmp k3 p) Ux) _ R4)].
Qed.
(** That is not the AMSGrad step, at any iteration, wherever the parameter moves. *)
Theorem C56_amsgrad_wrong lr b1 b2 eps n p m w : hyper b1 b2 eps -> (1 <= n)%nat -> lr <> 0 -> m <> 0 -> 0 <= w ->
  ad_new (lr / (1 - b2 ^ n)) b1 b2 eps n p m w <> ad_new lr b1 b2 eps n p m w.
Proof.
  intros (Hb1 & Hb2 & He) Hn Hl Hm Hw. unfold ad_new.
  destruct (pow_lt_1 b1 n Hb1 Hn) as [_ Q1]. destruct (pow_lt_1 b2 n ltac:(lra) Hn) as [_ Q2].
  pose proof (sqrt_pos (w / (1 - b2 ^ n))) as Q3. set (q := sqrt (w / (1 - b2 ^ n))) in *. set (c := 1 - b2 ^ n) in *. set (d := 1 - b1 ^ n) in *.
  assert (Hc : 0 < c < 1). { unfold c. assert (0 < b2 ^ n) by (apply pow_lt; lra). lra. }
  intros H. assert (Hz : lr * m * (1 - c) = 0).
  { assert (Hx : lr / c * (m / d) / (q + eps) = lr * (m / d) / (q + eps)) by lra. assert (Hd : 0 < d) by (unfold d; lra). assert (Hs : 0 < q + eps) by lra.
    assert (Hy : lr * m = c * (lr * m)); [|lra].
    transitivity (lr / c * (m / d) / (q + eps) * (c * d * (q + eps))); [field; lra|]. rewrite Hx. field. lra. }
  apply Rmult_integral in Hz as [Hz|Hz]; [|lra]. apply Rmult_integral in Hz as [Hz|Hz]; contradiction.
Qed.
End PropAdam.
