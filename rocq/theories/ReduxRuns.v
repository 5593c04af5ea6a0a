(** * From accumulation in order to reduction mode *)
From Coq Require Import FunctionalExtensionality Permutation.
From Verif Require Import Base Spec Geometry Traits TraitsProofs Runtime Ops KernelsElem ElemOps TensorSem ElemGeneric OneOut AccRuns Sequence Serial KeepRuns Redux.

Section Codelets.
Context {T : Type} {O : Ops T}.
(** src/starpu/accumulate.cc:28-38 (reduction codelet of set_reduction_add, tensor.hh:164-173): the first buffer is the destination. *)
Definition accumulate_cpu (b : list (buf T)) : res (list (buf T)) :=
  match b with
  | [BF dst; BF src] => r <- k_add (zlen dst) o_one src o_one dst ;; Ok [BF r; BF src]
  | _ => UB
  end.
(** src/starpu/accumulate_hypot.cc:28-38 (reduction codelet of set_reduction_hypot, tensor.hh:175-184) *)
Definition accumulate_hypot_cpu (b : list (buf T)) : res (list (buf T)) :=
  match b with
  | [BF dst; BF src] => r <- k_hypot (zlen dst) o_one src o_one dst ;; Ok [BF r; BF src]
  | _ => UB
  end.
End Codelets.

Lemma unred_ordered {T} (t : task T) : ordered_task t -> unred t = t.
Proof.
  intros H. destruct t as [acc body]. unfold unred, ordered_task in *. cbn [t_acc t_body] in *. f_equal.
  induction acc as [|[h m] acc IH]; [reflexivity|]. cbn [map fst snd]. rewrite IH by (intros k m' Hk; apply (H k m'); right; assumption).
  f_equal. destruct (H h m (or_introl eq_refl)). destruct m; cbn; congruence.
Qed.

Section Transport.
Context {T : Type} {O : Ops T}.
Variables (op : T -> T -> T) (z : T).
Hypothesis (op_comm : forall a b, op a b = op b a) (op_assoc : forall a b c, op (op a b) c = op a (op b c))
  (op_neut : forall a c, op (op a z) c = op a c).
Variables (init red : list (buf T) -> res (list (buf T))).
Hypothesis (Hinit : forall l, init [BF l] = Ok [BF (zrep (zlen l) z)]).
Hypothesis (Hred : forall a b, zlen a = zlen b -> red [BF a; BF b] = Ok [BF (ztab (zlen a) (fun o => op (zn a o) (zn b o))); BF b]).

Definition bplus (a b : buf T) : buf T := BF (ztab (zlen (fl a)) (fun o => op (zn (fl a) o) (zn (fl b) o))).

(** The task adds something to tile [i] of [D] in reduction mode. *)
Definition adds (ks : list tensor) (D : tensor) (s : store T) (t : task T) : Prop :=
  exists pre i (c : list (buf T) -> Z -> T), t_acc t = map (fun k => (k, MR)) pre ++ [(th D i, MREDUX)] /\ 0 <= i < ntiles D /\
    (forall h, In h pre -> ~ In h (tile_handles D)) /\
    forall st d, keep ks s st -> zlen d = tsz D i ->
      t_body t (map st pre ++ [BF d]) = Ok (map st pre ++ [BF (ztab (tsz D i) (fun o => op (zn d o) (c (map st pre) o)))]).

Lemma handle_tile D h : wft D -> In h (tile_handles D) -> exists i, 0 <= i < ntiles D /\ h = th D i.
Proof.
  intros HD Hin. apply (In_nth _ _ dflt) in Hin as (n & Hn & <-). exists (Z.of_nat n). rewrite <- (wf_hl _ HD). unfold zlen. split; [lia|].
  unfold th, zn. rewrite Nat2Z.id. reflexivity.
Qed.

Theorem redux_transport ks D s ts (P : store T -> Prop) : wft D -> stored KF s D -> (forall t, In t ks -> disj t D) ->
  runs_keep ks (Ok (map unred ts)) s P -> (forall t, In t ts -> ordered_task t \/ adds ks D s t) ->
  redux_runs init red (Ok ts) s P.
Proof.
  intros HD SD Hks HR Hts. destruct (keep_deterministic _ _ _ _ HR) as (ts' & s1 & E & Hseq & HP & _). inversion E; subst ts'. clear E.
  rewrite unred_sequential in Hseq. destruct HR as (ts' & E & Hsound & _ & _). inversion E; subst ts'. clear E. rewrite Forall_forall in Hsound.
  set (good := fun (h : handle) (b : buf T) => ty b = ty (s h)).
  assert (HG : forall h b, In h (tile_handles D) -> good h b -> exists l, b = BF l /\ zlen l = zlen (fl (s h))).
  { intros h b Hin Hb. destruct (handle_tile D h HD Hin) as (i & Hi & ->). unfold good in Hb. rewrite (SD i Hi) in Hb.
    destruct b as [l| |]; cbn [ty] in Hb; inversion Hb. exists l. split; [reflexivity|].
    pose proof (SD i Hi) as Q. destruct (s (th D i)) as [l'| |]; cbn [ty] in Q; inversion Q. cbn [fl]. congruence. }
  assert (HB : forall h l, In h (tile_handles D) -> zlen l = zlen (fl (s h)) -> good h (BF l)).
  { intros h l Hin Hl. destruct (handle_tile D h HD Hin) as (i & Hi & ->). unfold good. rewrite (SD i Hi).
    pose proof (SD i Hi) as Q. destruct (s (th D i)) as [l'| |]; cbn [ty] in Q; inversion Q. cbn [fl ty] in *. congruence. }
  apply (redux_sequential init red s (keep ks s) (fun h => In h (tile_handles D)) good bplus (fun h => BF (zrep (zlen (fl (s h))) z))) with (s1 := s1).
  - apply keep_ext.
  - intros st [H _]. assumption.
  - intros st h [H _] _. apply H.
  - intros st h b [H1 H2] Hin Hb. split.
    + intros k. unfold upd_store. destruct (Z.eqb_spec k h) as [->|]; [exact Hb|apply H1].
    + intros t k Ht Hk. rewrite upd_ne; [apply (H2 t); assumption|]. intros ->. apply (Hks t Ht h); assumption.
  - intros h a b Hin Ha Hb. destruct (HG h a Hin Ha) as (la & -> & La). destruct (HG h b Hin Hb) as (lb & -> & Lb). apply HB; [assumption|].
    cbn [fl]. rewrite zlen_ztab; [assumption|apply zlen_nonneg].
  - intros h a b Hin Ha Hb. destruct (HG h a Hin Ha) as (la & -> & La). destruct (HG h b Hin Hb) as (lb & -> & Lb).
    unfold bplus. cbn [fl]. f_equal. rewrite La, Lb. apply ztab_ext. intros o _. apply op_comm.
  - intros h a b c Hin Ha Hb Hc. destruct (HG h a Hin Ha) as (la & -> & La). destruct (HG h b Hin Hb) as (lb & -> & Lb). destruct (HG h c Hin Hc) as (lc & -> & Lc).
    unfold bplus. cbn [fl]. f_equal. rewrite !zlen_ztab by apply zlen_nonneg. apply ztab_ext. intros o Ho.
    rewrite !zn_ztab by (rewrite ?Lb, <- ?La; assumption). apply op_assoc.
  - intros h Hin. apply HB; [assumption|]. rewrite zlen_zrep; [reflexivity|apply zlen_nonneg].
  - intros h a c Hin Ha Hc. destruct (HG h a Hin Ha) as (la & -> & La). destruct (HG h c Hin Hc) as (lc & -> & Lc).
    unfold bplus. cbn [fl]. f_equal. rewrite !zlen_ztab by apply zlen_nonneg. apply ztab_ext. intros o Ho.
    rewrite !zn_ztab by assumption. rewrite zn_zrep by (rewrite <- La; assumption). apply op_neut.
  - intros h junk Hin Hj. destruct (HG h junk Hin Hj) as (l & -> & Hl). rewrite Hinit, Hl. reflexivity.
  - intros h a b Hin Ha Hb. destruct (HG h a Hin Ha) as (la & -> & La). destruct (HG h b Hin Hb) as (lb & -> & Lb).
    exists (BF lb). apply Hred. congruence.
  - apply Forall_forall. intros t Ht. destruct (Hts t Ht) as [Ho|(pre & i & c & Ea & Hi & Hpre & Hb)].
    + left. split; [assumption|]. rewrite <- (unred_ordered t Ho). apply Hsound, in_map, Ht.
    + right. exists pre, (th D i), (fun bs => BF (ztab (tsz D i) (c bs))). split; [assumption|].
      assert (Hin : In (th D i) (tile_handles D)) by (apply th_In; assumption). split; [intros Q; apply (Hpre _ Q Hin)|]. split; [assumption|].
      assert (Ls : zlen (fl (s (th D i))) = tsz D i) by (pose proof (SD i Hi) as Q; destruct (s (th D i)); cbn [ty] in Q; inversion Q; reflexivity).
      assert (Hp : 0 <= tsz D i) by (rewrite <- Ls; apply zlen_nonneg).
      intros st d Hst Hd. split.
      * apply HB; [assumption|]. rewrite zlen_ztab by assumption. symmetry. assumption.
      * destruct (HG _ d Hin Hd) as (l & -> & Hl). rewrite (Hb st l Hst) by congruence. do 3 f_equal. unfold bplus. cbn [fl]. f_equal.
        rewrite Hl, Ls. apply ztab_ext. intros o Ho. rewrite zn_ztab by assumption. reflexivity.
  - apply keep_refl.
  - assumption.
  - assumption.
Qed.
End Transport.
