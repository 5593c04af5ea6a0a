(** * Operations with commuting tasks composed with others

    Composition only needs that each task writes nothing it has not declared as written, and
    that two tasks from different operations never both commute on a handle. *)
From Verif Require Import Base Spec Geometry Traits TraitsProofs Runtime Ops TensorSem ElemGeneric OneOut AccRuns Sequence Serial NdRuns KeepRuns CommRuns
  KernelsElem ElemOps SliceOps LossOps.

Section A.
Context {T : Type}.

(** The operation submits tasks that write only what they declare, and every execution of
    them is free of errors and ends in a state satisfying P. *)
Definition runs_any (r : res (list (task T))) (s : store T) (P : store T -> Prop) : Prop :=
  exists ts, r = Ok ts /\ Forall (ok_task s) ts /\ always ts s (fun s' => tinv s s' /\ P s').

Lemma any_weaken r s (P Q : store T -> Prop) : runs_any r s P -> (forall s', tinv s s' -> P s' -> Q s') -> runs_any r s Q.
Proof.
  intros (ts & E & Hs & Ha) H. exists ts. split; [assumption|]. split; [assumption|].
  eapply always_weaken; [exact Ha|]. intros s' []. auto.
Qed.
Lemma any_ends r s (P : store T -> Prop) : runs_any r s P -> exists ts s', r = Ok ts /\ steps (ts, s) ([], s') /\ P s'.
Proof. intros (ts & E & _ & Ha). destruct (always_terminates _ _ _ Ha) as (s' & H1 & H2 & H3). eauto. Qed.
Lemma nd_any r s P : runs_nd r s P -> runs_any r s P.
Proof. intros (ts & E & H1 & _ & H2). exists ts. auto. Qed.

Lemma any_then_cross r1 r2 s P Q : runs_any r1 s P ->
  (forall ts1 ts2, r1 = Ok ts1 -> r2 = Ok ts2 -> cross ts1 ts2) ->
  (forall s1, tinv s s1 -> P s1 -> runs_any r2 s1 Q) ->
  runs_any (then_ r1 r2) s Q.
Proof.
  intros (ts1 & E1 & K1 & A1) Hx H2.
  destruct (always_terminates _ _ _ A1) as (s1 & _ & I1 & P1).
  destruct (H2 s1 I1 P1) as (ts2 & E2 & K2 & _).
  assert (K2' : Forall (ok_task s) ts2) by (eapply Forall_impl; [|exact K2]; intros t; apply ok_task_tinv; assumption).
  exists (ts1 ++ ts2). split; [unfold then_; rewrite E1, E2; reflexivity|].
  split; [apply Forall_app; split; assumption|].
  apply (always_app_cross s ts1 ts2 s (fun s' => tinv s s' /\ P s')); try assumption; [auto|apply tinv_refl|].
  intros s2 I2 [_ P2]. destruct (H2 s2 I2 P2) as (ts2' & E2' & _ & A2).
  assert (ts2' = ts2) by congruence. subst. eapply always_weaken; [exact A2|].
  intros s' [I' Q']. split; [|assumption]. apply (tinv_comp s s2 s'); assumption.
Qed.
(** One of the two may have commuting tasks. *)
Theorem any_then_l r1 r2 s P Q : runs_nd r1 s P -> (forall s1, tinv s s1 -> P s1 -> runs_any r2 s1 Q) ->
  runs_any (then_ r1 r2) s Q.
Proof.
  intros H1 H2. eapply any_then_cross; [apply nd_any; exact H1| |exact H2].
  intros ts1 ts2 E1 _. apply cross_l. destruct H1 as (ts & E & _ & O1 & _). congruence.
Qed.
Theorem any_then_r r1 r2 s P Q : runs_any r1 s P -> (forall s1, tinv s s1 -> P s1 -> runs_nd r2 s1 Q) ->
  runs_any (then_ r1 r2) s Q.
Proof.
  intros H1 H2. eapply any_then_cross; [exact H1| |intros; apply nd_any; auto].
  intros ts1 ts2 _ E2. apply cross_r. destruct H1 as (ts & E & _ & A1).
  destruct (always_terminates _ _ _ A1) as (s1 & _ & I1 & P1). destruct (H2 s1 I1 P1) as (ts2' & E2' & _ & O2 & _). congruence.
Qed.

(** A task whose body keeps buffer sizes and returns unwritten buffers as they were. *)
Lemma ok_body s0 (t : task T) :
  (forall ins out, t_body t ins = Ok out -> forall k h m b, nth_error (t_acc t) k = Some (h, m) -> nth_error out k = Some b ->
     exists b0, nth_error ins k = Some b0 /\ ty b = ty b0 /\ (writes m = false -> b = b0)) ->
  ok_task s0 t.
Proof.
  intros H s hv s' Hi Hh E. destruct (exec_inv _ _ _ _ E) as (out & Eo & Ew).
  assert (G : forall h b, wbl (t_acc t) out h = Some b -> exists m, In (h, m) (t_acc t) /\ m <> MSCRATCH /\
    ty b = ty (s h) /\ (writes m = false -> b = s h)).
  { intros h b Eb.
    assert (exists k m, nth_error (t_acc t) k = Some (h, m) /\ nth_error out k = Some b /\ m <> MSCRATCH) as (k & m & N1 & N2 & N3).
    { clear - Eb. revert out Eb. induction (t_acc t) as [|[h' m] acc IH]; intros [|x out] Eb; cbn [wbl] in Eb; try discriminate.
      destruct (wbl acc out h) eqn:Ew.
      - inversion Eb; subst. destruct (IH out Ew) as (k & m' & A & B & C). exists (S k), m'. auto.
      - exists 0%nat, m. destruct m; try discriminate; destruct (Z.eqb_spec h h'); inversion Eb; subst; (split; [reflexivity|split; [reflexivity|discriminate]]). }
    destruct (H _ _ Eo k h m b N1 N2) as (b0 & B1 & B2 & B3).
    rewrite nth_error_map, N1 in B1. cbn [option_map] in B1. inversion B1; subst.
    exists m. split; [eapply nth_error_In; exact N1|]. split; [assumption|]. unfold in_buf in *. cbn [fst snd] in *.
    destruct (reads m) eqn:Er; [split; assumption|]. split; [rewrite B2; apply Hh|]. intros Hw. destruct m; discriminate || contradiction. }
  split.
  - intros h. rewrite (write_back_at _ _ _ _ h Ew). destruct (wbl (t_acc t) out h) as [b|] eqn:Eb; [|apply Hi].
    destruct (G h b Eb) as (m & _ & _ & E1 & _). rewrite E1. apply Hi.
  - intros h Hw. rewrite (write_back_at _ _ _ _ h Ew). destruct (wbl (t_acc t) out h) as [b|] eqn:Eb; [|reflexivity].
    destruct (G h b Eb) as (m & H1 & _ & _ & H2). apply H2. apply (Hw m H1).
Qed.

Lemma keep_nd ks r (s : store T) P : (forall ts, r = Ok ts -> Forall (ok_task s) ts) -> runs_keep ks r s P -> runs_nd r s P.
Proof.
  intros H (ts & E & _ & Ho & Ha). exists ts. split; [assumption|]. split; [auto|]. split; [assumption|].
  eapply always_weaken; [exact Ha|]. intros s' [Hk HP]. split; [apply (keep_tinv ks); assumption|assumption].
Qed.
Lemma comm_any ks r (s : store T) P : (forall ts, r = Ok ts -> Forall (ok_task s) ts) -> runs_comm ks r s P -> runs_any r s P.
Proof.
  intros H (ts & E & _ & Ha). exists ts. split; [assumption|]. split; [auto|].
  eapply always_weaken; [exact Ha|]. intros s' [Hk HP]. split; [apply (keep_tinv ks); assumption|assumption].
Qed.

(** Loops that only assign elements keep the length. *)
Definition lenk {A} (f : list A -> res (list A)) : Prop := forall l l', f l = Ok l' -> zlen l' = zlen l.
Lemma lenk_for {A} lo hi (body : Z -> list A -> res (list A)) : (forall i, lenk (body i)) -> lenk (for_ lo hi body).
Proof.
  intros H. unfold for_. generalize (Z.to_nat (hi - lo)). intros n. revert lo. induction n as [|n IH]; intros lo l l' E; cbn [for_nat] in E.
  - inversion E; reflexivity.
  - destruct (body lo l) as [x| |] eqn:Ex; try discriminate. rewrite bind_Ok in E. rewrite (IH _ _ _ E). apply (H lo). assumption.
Qed.
Lemma lenk_bind {A B} (r : list A -> res B) (f : B -> list A -> res (list A)) : (forall b, lenk (f b)) -> lenk (fun l => b <- r l ;; f b l).
Proof. intros H l l' E. destruct (r l) as [b| |]; try discriminate. rewrite bind_Ok in E. apply (H b). assumption. Qed.
Lemma lenk_wr {A} i (v : A) : lenk (fun l => wr l i v).
Proof.
  intros l l' E. destruct (Z_lt_dec i 0); [|destruct (Z_lt_dec i (zlen l))].
  - rewrite wr_oob in E by lia. discriminate.
  - destruct (wr_ok (H:=v) l i v) as (l2 & E0 & Hl & _); [lia|]. congruence.
  - rewrite wr_oob in E by lia. discriminate.
Qed.
Lemma lenk_Ok {A} : lenk (@Ok (list A)).
Proof. intros l l' E. inversion E. reflexivity. Qed.
End A.


Section L.
Context {T : Type} {O : Ops T}.

Ltac body_tac E := repeat match type of E with
  | match ?l with _ => _ end = Ok _ => destruct l; try discriminate
  end.

Lemma total_sum_okt s0 (alpha : T) n m a b c d : ok_task s0 (total_sum_accum_submit alpha n m a b c d).
Proof.
  apply ok_body. cbn [t_body total_sum_accum_submit t_acc]. intros ins out E. unfold total_sum_accum_cpu in E. body_tac E.
  destruct (k_total_sum_accum _ _ _ _ _ _ _) as [v| |] eqn:Ek; try discriminate. rewrite bind_Ok in E. inversion E; subst; clear E.
  intros [|[|[|[|[|k]]]]] h md b1 N1 N2; cbn [nth_error] in *; inversion N1; inversion N2; subst; eexists; (split; [reflexivity|]);
    (split; [|try reflexivity; discriminate]); try reflexivity. cbn [ty]. f_equal.
  unfold k_total_sum_accum in Ek. destruct (for_ _ _ _ _) as [[x y]| |]; try discriminate. rewrite bind_Ok in Ek.
  destruct (rd _ 0); try discriminate. rewrite bind_Ok in Ek. apply lenk_wr in Ek. assumption.
Qed.

Lemma subtract_okt s0 n m (val : T) a b : ok_task s0 (subtract_indexed_outputs_submit n m val a b).
Proof.
  apply ok_body. cbn [t_body subtract_indexed_outputs_submit t_acc]. intros ins out E. unfold subtract_indexed_outputs_cpu in E. body_tac E.
  destruct (k_subtract_indexed_outputs _ _ _ _ _) as [v| |] eqn:Ek; try discriminate. rewrite bind_Ok in E. inversion E; subst; clear E.
  intros [|[|[|k]]] h md b1 N1 N2; cbn [nth_error] in *; inversion N1; inversion N2; subst; eexists; (split; [reflexivity|]);
    (split; [|try reflexivity; discriminate]); try reflexivity. cbn [ty]. f_equal.
  unfold k_subtract_indexed_outputs in Ek. revert Ek. apply lenk_for. intros i e e' E.
  destruct (rd _ i); try discriminate. rewrite bind_Ok in E. destruct (rd _ _); try discriminate. rewrite bind_Ok in E. apply lenk_wr in E. assumption.
Qed.

Lemma embedding_okt s0 m n k ks kz a b c : ok_task s0 (embedding_submit (T:=T) m n k ks kz a b c).
Proof.
  apply ok_body. cbn [t_body embedding_submit t_acc]. intros ins out E. unfold embedding_cpu in E. body_tac E.
  destruct (k_embedding _ _ _ _ _ _ _ _) as [v| |] eqn:Ek; try discriminate. rewrite bind_Ok in E. inversion E; subst; clear E.
  intros [|[|[|[|q]]]] h md b1 N1 N2; cbn [nth_error] in *; inversion N1; inversion N2; subst; eexists; (split; [reflexivity|]);
    (split; [|try reflexivity; discriminate]); try reflexivity. cbn [ty]. f_equal.
  unfold k_embedding in Ek. revert Ek. apply lenk_for. intros i2. apply lenk_for. intros i1 e e' E.
  destruct (rd _ (_ + _)) as [v0| |]; try discriminate. rewrite bind_Ok in E. revert E. apply lenk_for. intros i0 e0 e0' E.
  destruct (rd _ _); try discriminate. rewrite bind_Ok in E. apply lenk_wr in E. assumption.
Qed.

Lemma embedding_backward_okt s0 m n k ks kz a b c redux : ok_task s0 (embedding_backward_submit (T:=T) m n k ks kz a b c redux).
Proof.
  apply ok_body. cbn [t_body embedding_backward_submit t_acc]. intros ins out E. unfold embedding_backward_cpu in E. body_tac E.
  destruct (k_embedding_backward _ _ _ _ _ _ _ _) as [v| |] eqn:Ek; try discriminate. rewrite bind_Ok in E. inversion E; subst; clear E.
  intros [|[|[|[|q]]]] h md b1 N1 N2; cbn [nth_error] in *; inversion N1; inversion N2; subst; eexists; (split; [reflexivity|]);
    (split; [|try reflexivity; destruct redux; discriminate]); try reflexivity. cbn [ty]. f_equal.
  unfold k_embedding_backward in Ek. revert Ek. apply lenk_for. intros i2. apply lenk_for. intros i1 e e' E.
  destruct (rd _ (_ + _)) as [v0| |]; try discriminate. rewrite bind_Ok in E. revert E. apply lenk_for. intros i0 e0 e0' E.
  destruct (rd _ _); try discriminate. rewrite bind_Ok in E. destruct (rd e0 _); try discriminate. rewrite bind_Ok in E. apply lenk_wr in E. assumption.
Qed.
End L.
