(** * Differentiation of a sequence of layers

    Mathematics only: values are functions from indices to reals; a layer computes the value of
    one node from the values of other nodes, and comes with a formula for the gradients of its
    inputs given the gradient of its output.  If every such formula is right (a vector-Jacobian
    product), going through the layers backwards computes the derivatives of any function of the
    node values. *)
From Coq Require Import Reals Lra FunctionalExtensionality.
From Coquelicot Require Import Coquelicot.
From Verif Require Import Base Spec Geometry RSum AttnSpec.
Local Open Scope R_scope.
Local Close Scope Z_scope.
Local Open Scope R_scope.

Definition arr := list Z -> R.
Definition dot (sh : list Z) (f g : arr) : R := Rsuml (all_idx sh) (fun i => f i * g i).

(** A layer: input nodes in order (possibly with repetitions), output node, the function of the
    input values (by position), its domain of differentiability, and the gradient formula. *)
Record mlayer := {
  ml_ins : list nat;
  ml_out : nat;
  ml_F : (nat -> arr) -> arr;
  ml_D : (nat -> arr) -> Prop;
  ml_dl : (nat -> arr) -> arr -> nat -> arr
}.
Definition arity (l : mlayer) : nat := List.length (ml_ins l).
Definition inp (l : mlayer) (j : nat) : nat := nth j (ml_ins l) 0%nat.
Definition Nsum (n : nat) (f : nat -> R) : R := Rsuml (seq 0 n) f.

(** [shape n] is the shape of node [n].  Along every curve of inputs, differentiable at a point
    of the domain, the output is differentiable and the gradient formula is the transposed
    derivative. *)
Definition vjp (shape : nat -> list Z) (l : mlayer) : Prop :=
  forall (c : R -> nat -> arr) (c' : nat -> arr) (t0 : R),
    ml_D l (c t0) ->
    (forall j idx, (j < arity l)%nat -> inb (shape (inp l j)) idx -> is_derive (fun t => c t j idx) t0 (c' j idx)) ->
    exists y' : arr,
      (forall idx, inb (shape (ml_out l)) idx -> is_derive (fun t => ml_F l (c t) idx) t0 (y' idx)) /\
      forall gy, dot (shape (ml_out l)) gy y' =
        Nsum (arity l) (fun j => dot (shape (inp l j)) (ml_dl l (c t0) gy j) (c' j)).

(** ** Evaluation *)
Definition args (l : mlayer) (e : nat -> arr) : nat -> arr := fun j => e (inp l j).
Definition fire (l : mlayer) (e : nat -> arr) : nat -> arr :=
  fun n => if Nat.eq_dec n (ml_out l) then ml_F l (args l e) else e n.
Fixpoint eval (ls : list mlayer) (e : nat -> arr) : nat -> arr :=
  match ls with [] => e | l :: ls => eval ls (fire l e) end.
Fixpoint dom (ls : list mlayer) (e : nat -> arr) : Prop :=
  match ls with [] => True | l :: ls => ml_D l (args l e) /\ dom ls (fire l e) end.

(** No node is computed twice or after it was used. *)
Fixpoint ssa (ls : list mlayer) : Prop :=
  match ls with
  | [] => True
  | l :: ls => ~ In (ml_out l) (ml_ins l) /\ Forall (fun l' => ml_out l' <> ml_out l /\ ~ In (ml_out l') (ml_ins l)) ls /\ ssa ls
  end.

(** ** Gradients, backwards *)
(** contribution of layer [l] to the gradient of node [n] *)
Definition contrib (l : mlayer) (vs : nat -> arr) (gy : arr) (n : nat) : arr :=
  fun idx => Nsum (arity l) (fun j => if Nat.eq_dec (inp l j) n then ml_dl l vs gy j idx else 0).
Definition acc (l : mlayer) (vs : nat -> arr) (G : nat -> arr) : nat -> arr :=
  fun n idx => G n idx + contrib l vs (G (ml_out l)) n idx.
Fixpoint back (ls : list mlayer) (e : nat -> arr) (G : nat -> arr) : nat -> arr :=
  match ls with [] => G | l :: ls => acc l (args l e) (back ls (fire l e) G) end.

(** ** The theorem *)
Lemma dot_plus sh f g h : dot sh (fun i => f i + g i) h = dot sh f h + dot sh g h.
Proof. unfold dot. rewrite <- Rsuml_plus. apply Rsuml_ext. intros. ring. Qed.
Lemma dot_0 sh g : dot sh (fun _ => 0) g = 0.
Proof. apply Rsuml_0. intros. ring. Qed.
Lemma dot_0_r sh f g : (forall i, In i (all_idx sh) -> g i = 0) -> dot sh f g = 0.
Proof. intros H. apply Rsuml_0. intros i Hi. rewrite H by assumption. ring. Qed.
Lemma dot_Rsuml {X} sh (l : list X) (f : X -> arr) g : dot sh (fun i => Rsuml l (fun j => f j i)) g = Rsuml l (fun j => dot sh (f j) g).
Proof.
  induction l as [|j l IH].
  - apply Rsuml_0. intros. cbn. ring.
  - rewrite Rsuml_cons, <- IH, <- dot_plus. apply Rsuml_ext. intros. rewrite Rsuml_cons. reflexivity.
Qed.

Definition outs (ls : list mlayer) : list nat := map ml_out ls.
Definition notin (ns : list nat) (n : nat) : bool := negb (if in_dec Nat.eq_dec n ns then true else false).

Lemma Rsuml_pick (N : list nat) (n0 : nat) (f : nat -> R) : NoDup N -> In n0 N ->
  Rsuml N f = f n0 + Rsuml N (fun n => if Nat.eq_dec n n0 then 0 else f n).
Proof.
  intros H Hi. induction H as [|x l Hx Hl IH]; [destruct Hi|]. rewrite !Rsuml_cons. destruct (Nat.eq_dec x n0) as [->|Hne].
  - f_equal. rewrite Rplus_0_l. apply Rsuml_ext. intros y Hy. destruct (Nat.eq_dec y n0) as [->|]; [contradiction|reflexivity].
  - destruct Hi as [->|Hi]; [contradiction|]. rewrite IH by assumption. ring.
Qed.

Section Back.
Variables (shape : nat -> list Z) (N : list nat).
Hypothesis ND : NoDup N.

(** sum over the nodes not computed by [ls] *)
Definition pairing (ls : list mlayer) (G e' : nat -> arr) : R :=
  Rsuml N (fun n => if notin (outs ls) n then dot (shape n) (G n) (e' n) else 0).

Lemma acc_pairing l ls vs G e' y' : ~ In (ml_out l) (outs ls) -> In (ml_out l) N ->
  (forall j, (j < arity l)%nat -> In (inp l j) N /\ ~ In (inp l j) (ml_out l :: outs ls)) ->
  dot (shape (ml_out l)) (G (ml_out l)) y' = Nsum (arity l) (fun j => dot (shape (inp l j)) (ml_dl l vs (G (ml_out l)) j) (e' (inp l j))) ->
  pairing ls G (fun n => if Nat.eq_dec n (ml_out l) then y' else e' n) = pairing (l :: ls) (acc l vs G) e'.
Proof.
  intros Ho HoN Hi Hd. unfold pairing.
  assert (Hex : forall n, notin (outs (l :: ls)) n = if Nat.eq_dec n (ml_out l) then false else notin (outs ls) n).
  { intros n. unfold notin. cbn [outs map]. destruct (Nat.eq_dec n (ml_out l)) as [->|Hn].
    - destruct (in_dec Nat.eq_dec (ml_out l) (ml_out l :: map ml_out ls)) as [|C]; [reflexivity|]. exfalso; apply C; left; reflexivity.
    - destruct (in_dec Nat.eq_dec n (ml_out l :: map ml_out ls)) as [C|C], (in_dec Nat.eq_dec n (outs ls)) as [D|D]; try reflexivity; exfalso.
      + destruct C as [C|C]; [congruence|contradiction].
      + apply C. right. assumption. }
  rewrite (Rsuml_pick N (ml_out l)) by assumption.
  destruct (Nat.eq_dec (ml_out l) (ml_out l)) as [_|C]; [|congruence].
  assert (En : notin (outs ls) (ml_out l) = true) by (unfold notin; destruct (in_dec _ _ _); [contradiction|reflexivity]).
  rewrite En, Hd.
  transitivity (Rsuml N (fun n => if notin (outs (l :: ls)) n then dot (shape n) (G n) (e' n) else 0) +
                Rsuml N (fun n => if notin (outs (l :: ls)) n then dot (shape n) (contrib l vs (G (ml_out l)) n) (e' n) else 0)).
  2:{ rewrite <- Rsuml_plus. apply Rsuml_ext. intros n _. destruct (notin _ n); [|ring]. unfold acc. rewrite dot_plus. reflexivity. }
  rewrite Rplus_comm. f_equal.
  - apply Rsuml_ext. intros n _. rewrite Hex. destruct (Nat.eq_dec n (ml_out l)); reflexivity.
  - transitivity (Rsuml N (fun n => Nsum (arity l) (fun j => if Nat.eq_dec n (inp l j) then dot (shape n) (ml_dl l vs (G (ml_out l)) j) (e' n) else 0))).
    + unfold Nsum. rewrite (Rsuml_swap N). apply Rsuml_ext. intros j Hj. apply in_seq in Hj. destruct (Hi j) as [Hi1 _]; [lia|].
      rewrite (Rsuml_pick N (inp l j)) by assumption. destruct (Nat.eq_dec (inp l j) (inp l j)) as [_|C]; [|congruence].
      rewrite Rsuml_0; [ring|]. intros n _. destruct (Nat.eq_dec n (inp l j)); reflexivity.
    + apply Rsuml_ext. intros n _. destruct (notin (outs (l :: ls)) n) eqn:Enn.
      * unfold contrib, Nsum. rewrite (dot_Rsuml (shape n) (seq 0 (arity l)) (fun j idx => if Nat.eq_dec (inp l j) n then ml_dl l vs (G (ml_out l)) j idx else 0)). apply Rsuml_ext. intros j _.
        destruct (Nat.eq_dec (inp l j) n) as [Ej|Ej], (Nat.eq_dec n (inp l j)) as [Ej'|Ej']; try congruence; [reflexivity|]. symmetry. apply dot_0.
      * apply Rsuml_0. intros j Hj. apply in_seq in Hj. destruct (Nat.eq_dec n (inp l j)) as [->|]; [|reflexivity].
        destruct (Hi j) as [_ Hi2]; [lia|]. unfold notin in Enn. destruct (in_dec _ _ _); [contradiction|discriminate].
Qed.

(** The derivative along a curve of leaf values, in terms of the gradients at the leaves. *)
Theorem back_pairing ls : Forall (vjp shape) ls -> ssa ls -> (forall n, In n (outs ls) -> In n N) ->
  (forall l j, In l ls -> (j < arity l)%nat -> In (inp l j) N) ->
  forall (e : R -> nat -> arr) (e' : nat -> arr) t0, dom ls (e t0) ->
  (forall n idx, In n N -> inb (shape n) idx -> is_derive (fun t => e t n idx) t0 (e' n idx)) ->
  exists f', (forall n idx, In n N -> inb (shape n) idx -> is_derive (fun t => eval ls (e t) n idx) t0 (f' n idx)) /\
    (forall n, ~ In n (outs ls) -> f' n = e' n) /\
    forall G, Rsuml N (fun n => dot (shape n) (G n) (f' n)) = pairing ls (back ls (e t0) G) e'.
Proof.
  induction ls as [|l ls IH]; intros HV HS HO HI e e' t0 HD He.
  - exists e'. split; [assumption|]. split; [reflexivity|]. intros G. unfold pairing. apply Rsuml_ext. intros n _. reflexivity.
  - inversion HV as [|? ? V1 V2]; subst. destruct HS as (S1 & S2 & S3). destruct HD as [D1 D2].
    destruct (V1 (fun t => args l (e t)) (args l e') t0 D1) as (y' & Y1 & Y2).
    { intros j idx Hj Hi. apply He; [apply HI; [left; reflexivity|assumption]|assumption]. }
    destruct (IH V2 S3 ltac:(intros n Hn; apply HO; right; assumption) ltac:(intros l' j Hl; apply HI; right; assumption)
      (fun t => fire l (e t)) (fun n => if Nat.eq_dec n (ml_out l) then y' else e' n) t0 D2) as (f' & F1 & F2 & F3).
    { intros n idx Hn Hi. unfold fire. destruct (Nat.eq_dec n (ml_out l)) as [->|]; [apply Y1; assumption|apply He; assumption]. }
    exists f'. split; [exact F1|]. split.
    { intros n Hn. rewrite F2 by (intros C; apply Hn; right; assumption). destruct (Nat.eq_dec n (ml_out l)) as [->|]; [|reflexivity].
      exfalso. apply Hn. left. reflexivity. }
    intros G. rewrite F3. cbn [back]. apply acc_pairing.
    + intros C. apply in_map_iff in C as (l' & El & Hl). rewrite Forall_forall in S2. destruct (S2 l' Hl). contradiction.
    + apply HO. left. reflexivity.
    + intros j Hj. split; [apply HI; [left; reflexivity|assumption]|].
      assert (Hin : In (inp l j) (ml_ins l)) by (apply nth_In; assumption).
      intros [C|C]; [apply S1; rewrite C; assumption|]. apply in_map_iff in C as (l' & El & Hl). rewrite Forall_forall in S2.
      destruct (S2 l' Hl) as [_ C]. apply C. rewrite El. assumption.
    + apply Y2.
Qed.
End Back.

(** ** Gradient of a loss *)
(** the values [e] with entry [idx] of node [n] replaced by [t] *)
Definition vary (e : nat -> arr) (n : nat) (idx : list Z) (t : R) : nat -> arr :=
  fun m => if Nat.eq_dec m n then upd (e m) idx t else e m.
(** [dL] is the gradient of the function [L] of a value of shape [sh] *)
Definition gradient_of (sh : list Z) (D : arr -> Prop) (L : arr -> R) (dL : arr -> arr) : Prop :=
  forall (c : R -> arr) (c' : arr) t0, D (c t0) -> (forall idx, inb sh idx -> is_derive (fun t => c t idx) t0 (c' idx)) ->
    is_derive (fun t => L (c t)) t0 (dot sh (dL (c t0)) c').

Lemma vary_self e n idx : vary e n idx (e n idx) = e.
Proof.
  apply functional_extensionality. intros m. unfold vary. destruct (Nat.eq_dec m n) as [->|]; [|reflexivity].
  apply functional_extensionality. apply upd_self.
Qed.
Lemma dot_delta sh f idx : pos sh -> inb sh idx -> dot sh f (fun i => if list_eq_dec Z.eq_dec i idx then 1 else 0) = f idx.
Proof.
  intros Hp Hi. unfold dot. assert (G : forall l, NoDup l -> In idx l -> Rsuml l (fun i => f i * (if list_eq_dec Z.eq_dec i idx then 1 else 0)) = f idx).
  { induction 1 as [|x l Hx Hl IH]; intros Hin; [destruct Hin|]. rewrite Rsuml_cons. destruct (list_eq_dec Z.eq_dec x idx) as [->|Hn].
    - rewrite Rsuml_0; [ring|]. intros y Hy. destruct (list_eq_dec Z.eq_dec y idx) as [->|]; [contradiction|ring].
    - destruct Hin as [->|Hin]; [contradiction|]. rewrite IH by assumption. ring. }
  apply G; [apply NoDup_all_idx; assumption|apply all_idx_In; assumption].
Qed.

(** Start with the gradient of the loss at node [o], zero at the other computed nodes and
    anything at the leaves; go backwards through the layers: what is added at a leaf is the
    partial derivative of the loss of the computed value of [o]. *)
Theorem back_gradient (shape : nat -> list Z) (N : list nat) (ls : list mlayer) (o : nat) D L dL (e G : nat -> arr) :
  NoDup N -> (forall n, In n N -> pos (shape n)) -> Forall (vjp shape) ls -> ssa ls ->
  (forall n, In n (outs ls) -> In n N) -> (forall l j, In l ls -> (j < arity l)%nat -> In (inp l j) N) -> In o (outs ls) ->
  gradient_of (shape o) D L dL -> dom ls e -> D (eval ls e o) ->
  (forall idx, inb (shape o) idx -> G o idx = dL (eval ls e o) idx) ->
  (forall m idx, In m (outs ls) -> m <> o -> inb (shape m) idx -> G m idx = 0) ->
  forall n idx, In n N -> ~ In n (outs ls) -> inb (shape n) idx ->
    is_derive (fun t => L (eval ls (vary e n idx t) o)) (e n idx) (back ls e G n idx - G n idx).
Proof.
  intros ND Hpos HV HS HO HI Ho HL HD Do Go G0 n idx Hn Hno Hi.
  set (e' := fun m i => if Nat.eq_dec m n then (if list_eq_dec Z.eq_dec i idx then 1 else 0) else 0 : R).
  assert (Ee : vary e n idx (e n idx) = e) by apply vary_self.
  destruct (back_pairing shape N ND ls HV HS HO HI (vary e n idx) e' (e n idx)) as (f' & F1 & F2 & F3).
  { rewrite Ee. assumption. }
  { intros m i Hm Him. unfold e', vary. destruct (Nat.eq_dec m n); [apply upd_derive|apply (is_derive_const (K := R_AbsRing) (V := R_NormedModule))]. }
  rewrite Ee in F3. specialize (F3 G).
  assert (HoN : In o N) by (apply HO; assumption).
  assert (Hon : o <> n) by congruence.
  pose proof (HL (fun t => eval ls (vary e n idx t) o) (f' o) (e n idx)) as HL'. cbv beta in HL'. rewrite Ee in HL'.
  specialize (HL' Do (fun i H => F1 o i HoN H)).
  replace (back ls e G n idx - G n idx) with (dot (shape o) (dL (eval ls e o)) (f' o)); [exact HL'|].
  assert (EL : Rsuml N (fun m => dot (shape m) (G m) (f' m)) = G n idx + dot (shape o) (dL (eval ls e o)) (f' o)).
  { rewrite (Rsuml_pick N n) by assumption. f_equal.
    - rewrite F2 by assumption. unfold e'. destruct (Nat.eq_dec n n); [|congruence]. apply dot_delta; auto.
    - rewrite (Rsuml_pick N o) by assumption. destruct (Nat.eq_dec o n); [congruence|]. rewrite Rsuml_0.
      + rewrite Rplus_0_r. apply Rsuml_ext. intros i Hin. rewrite Go; [reflexivity|]. apply all_idx_In; auto.
      + intros m Hm. destruct (Nat.eq_dec m o) as [|Hmo]; [reflexivity|]. destruct (Nat.eq_dec m n) as [|Hmn]; [reflexivity|].
        destruct (in_dec Nat.eq_dec m (outs ls)) as [Hin|Hin].
        * apply Rsuml_0. intros i Hi'. rewrite G0; [ring|assumption..|]. apply all_idx_In; auto.
        * rewrite F2 by assumption. apply dot_0_r. intros i _. unfold e'. destruct (Nat.eq_dec m n); [congruence|reflexivity]. }
  assert (ER : pairing shape N ls (back ls e G) e' = back ls e G n idx).
  { unfold pairing. rewrite (Rsuml_pick N n) by assumption. rewrite Rsuml_0.
    - unfold notin. destruct (in_dec Nat.eq_dec n (outs ls)); [contradiction|]. cbn [negb]. unfold e'. destruct (Nat.eq_dec n n); [|congruence].
      rewrite dot_delta by auto. ring.
    - intros m _. destruct (Nat.eq_dec m n) as [|Hmn]; [reflexivity|]. destruct (notin (outs ls) m); [|reflexivity].
      apply dot_0_r. intros i _. unfold e'. destruct (Nat.eq_dec m n); [congruence|reflexivity]. }
  rewrite EL, ER in F3. lra.
Qed.
