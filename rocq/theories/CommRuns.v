(** * Tasks that update one buffer in any order (STARPU_COMMUTE) *)
From Coq Require Import FunctionalExtensionality.
From Verif Require Import Base Spec Geometry Traits TraitsProofs Runtime Ops TensorSem ElemGeneric OneOut AccRuns Sequence Serial KeepRuns.

Section Comm.
Context {T : Type}.

(** As [runs_keep], for tasks that may use the commutative access mode: the runtime is free to
    reorder them, and every order must give a result described by [P]. *)
Definition runs_comm (ks : list tensor) (r : res (list (task T))) (s : store T) (P : store T -> Prop) : Prop :=
  exists ts, r = Ok ts /\ Forall (sound_task (keep ks s)) ts /\ always ts s (fun s' => keep ks s s' /\ P s').

Lemma comm_weaken ks r s (P Q : store T -> Prop) : runs_comm ks r s P -> (forall s', keep ks s s' -> P s' -> Q s') -> runs_comm ks r s Q.
Proof.
  intros (ts & E & Hs & Ha) H. exists ts. split; [assumption|]. split; [assumption|].
  eapply always_weaken; [exact Ha|]. intros s' [H1 H2]. split; [assumption|]. apply H; assumption.
Qed.
Lemma comm_ends ks r s (P : store T -> Prop) : runs_comm ks r s P -> exists ts s', r = Ok ts /\ steps (ts, s) ([], s') /\ P s'.
Proof.
  intros (ts & E & _ & Ha). destruct (always_terminates _ _ _ Ha) as (s' & H1 & _ & H2). eauto.
Qed.

Section One.
Context {X : Type} (ks : list tensor) (s : store T) (h : handle) (n : Z) (xs : list X) (md : mode)
  (pre : X -> list handle) (body : X -> list (buf T) -> res (list (buf T)))
  (F : X -> list (buf T) -> list T -> list T).
Hypothesis (Hmd : md = MRW \/ md = MCOMMUTE \/ md = MREDUX).
Hypothesis (Hty : ty (s h) = (KF, n)).
Hypothesis (Hpre : forall x, In x xs -> ~ In h (pre x)).
Hypothesis (Hks : forall t, In t ks -> ~ In h (tile_handles t)).
Hypothesis (Hlen : forall x st d, In x xs -> keep ks s st -> zlen d = n -> zlen (F x (map st (pre x)) d) = n).
Hypothesis (Hbody : forall x st d, In x xs -> keep ks s st -> zlen d = n ->
  body x (map st (pre x) ++ [BF d]) = Ok (map st (pre x) ++ [BF (F x (map st (pre x)) d)])).
Hypothesis (Hcomm : forall x y st d, In x xs -> In y xs -> keep ks s st -> zlen d = n ->
  F x (map st (pre x)) (F y (map st (pre y)) d) = F y (map st (pre y)) (F x (map st (pre x)) d)).

Definition c_task (x : X) : task T := mkTask (map (fun k => (k, MR)) (pre x) ++ [(h, md)]) (body x).
Definition c_val (x : X) (st : store T) : buf T := BF (F x (map st (pre x)) (fl (st h))).
Definition c_eff (x : X) : eff T := [(h, c_val x)].

Lemma rd_md : reads md = true /\ writes md = true.
Proof. destruct Hmd as [->|[->| ->]]; auto. Qed.

Lemma keep_h st : keep ks s st -> exists d, st h = BF d /\ zlen d = n.
Proof. intros [H _]. apply ty_BF. rewrite H. assumption. Qed.

Lemma keep_upd st d : keep ks s st -> zlen d = n -> keep ks s (upd_store st h (BF d)).
Proof.
  intros [H1 H2] Hd. split.
  - intros h'. unfold upd_store. destruct (Z.eqb_spec h' h) as [->|]; [|apply H1]. rewrite Hty. cbn. congruence.
  - intros t h' Ht Hh. unfold upd_store. destruct (Z.eqb_spec h' h) as [->|]; [|apply (H2 t); assumption].
    exfalso. apply (Hks t); assumption.
Qed.

Lemma c_app x st : forall h', app_eff (c_eff x) st h' = upd_store st h (c_val x st) h'.
Proof.
  intros h'. unfold app_eff, c_eff, upd_store. cbn [elookup]. destruct (h' =? h); reflexivity.
Qed.

Lemma c_task_eff x : In x xs -> task_eff (keep ks s) (c_task x) (c_eff x).
Proof.
  intros Hx. destruct rd_md as [Rm Wm]. apply mk_task_eff.
  - intros st hv Hk Hhv. destruct (keep_h st Hk) as (d & Ed & Hd).
    exists (map st (pre x) ++ [BF (F x (map st (pre x)) d)]). split.
    { unfold c_task. cbn [t_body t_acc]. rewrite map_app, map_map. cbn [map]. unfold in_buf at 2. cbn [fst snd]. rewrite Rm, Ed.
      change (map (fun k => in_buf st hv (k, MR)) (pre x)) with (map st (pre x)). apply Hbody; assumption. }
    split; [unfold c_task; cbn [t_acc]; rewrite !app_length, !map_length; reflexivity|].
    intros k h' m b Ha Hb _. unfold c_task in Ha. cbn [t_acc] in Ha. rewrite c_app. unfold upd_store, c_val. rewrite Ed. cbn [fl].
    destruct (Nat.lt_ge_cases k (List.length (pre x))) as [Hk'|Hk'].
    + rewrite nth_error_app1 in Ha by (rewrite map_length; assumption). rewrite nth_error_app1 in Hb by (rewrite map_length; assumption).
      rewrite nth_error_map' in Ha. rewrite nth_error_map' in Hb. destruct (nth_error (pre x) k) as [y|] eqn:E; [|discriminate].
      cbn in Ha, Hb. inversion Ha; inversion Hb; subst. destruct (Z.eqb_spec h' h) as [->|]; [|reflexivity].
      exfalso. apply (Hpre x Hx). eapply nth_error_In; eassumption.
    + rewrite nth_error_app2 in Ha by (rewrite map_length; assumption). rewrite nth_error_app2 in Hb by (rewrite map_length; assumption).
      rewrite map_length in *. destruct (k - List.length (pre x))%nat as [|k']; cbn in Ha, Hb.
      * inversion Ha; inversion Hb; subst. rewrite Z.eqb_refl. reflexivity.
      * destruct k'; discriminate.
  - unfold c_eff. cbn [elookup]. intros h' f. destruct (Z.eqb_spec h' h) as [->|]; [|discriminate]. intros _. exists md.
    split; [|assumption]. unfold c_task. cbn [t_acc]. apply in_or_app. right. left. reflexivity.
  - unfold c_eff. cbn [elookup]. intros h' f s1 s2. destruct (Z.eqb_spec h' h) as [->|]; [|discriminate].
    intros E H. inversion E; subst. unfold c_val. unfold c_task in H. cbn [t_acc] in H.
    rewrite (H h md); [|apply in_or_app; right; left; reflexivity|assumption].
    rewrite (map_ext_in s1 s2); [reflexivity|]. intros k Hk. apply (H k MR); [|reflexivity]. apply in_or_app. left. apply in_map_iff. eauto.
  - intros h' m Hin Hw. unfold c_eff. cbn [elookup]. destruct (Z.eqb_spec h' h) as [->|Hne]; [discriminate|].
    unfold c_task in Hin. cbn [t_acc] in Hin. apply in_app_or in Hin as [Hin|[E|[]]].
    + apply in_map_iff in Hin as (k & E & _). inversion E; subst. discriminate.
    + inversion E; subst. contradiction.
  - intros st Hk. destruct (keep_h st Hk) as (d & Ed & Hd).
    eapply keep_ext; [|apply (keep_upd st (F x (map st (pre x)) d) Hk)]; [|apply Hlen; assumption].
    intros h'. rewrite c_app. unfold c_val. rewrite Ed. reflexivity.
Qed.

Lemma upd_at (st : store T) b : upd_store st h b h = b.
Proof. unfold upd_store. rewrite Z.eqb_refl. reflexivity. Qed.
Lemma upd_off (st : store T) b h' : h' <> h -> upd_store st h b h' = st h'.
Proof. intros Hn. unfold upd_store. destruct (Z.eqb_spec h' h); [contradiction|reflexivity]. Qed.
Lemma pre_upd x (st : store T) b : In x xs -> map (upd_store st h b) (pre x) = map st (pre x).
Proof.
  intros Hx. apply map_ext_in. intros k Hk. unfold upd_store. destruct (Z.eqb_spec k h) as [->|]; [|reflexivity].
  exfalso. apply (Hpre x Hx Hk).
Qed.

Lemma upd_val x b : In x xs -> c_val x (upd_store s h b) = BF (F x (map s (pre x)) (fl b)).
Proof. intros Hx. unfold c_val. rewrite pre_upd by assumption. rewrite upd_at. reflexivity. Qed.

Theorem one_comm r : r = Ok (map c_task xs) ->
  runs_comm ks r s (fun s' => s' h = BF (fold_left (fun d x => F x (map s (pre x)) d) xs (fl (s h))) /\
    forall h', h' <> h -> s' h' = s h').
Proof.
  intros ->. exists (map c_task xs). split; [reflexivity|].
  assert (Hks0 : keep ks s s) by apply keep_refl. split.
  { apply Forall_forall. intros t Ht. apply in_map_iff in Ht as (x & <- & Hx).
    eapply task_eff_sound; [apply keep_ext|apply c_task_eff; assumption]. }
  set (tes := map (fun x => (c_task x, c_eff x)) xs).
  assert (Hdet : detlist (keep ks s) tes).
  { constructor.
    - intros p Hp. apply in_map_iff in Hp as (x & <- & Hx). apply c_task_eff. assumption.
    - intros p q Hp Hq _. apply in_map_iff in Hp as (x & <- & Hx). apply in_map_iff in Hq as (y & <- & Hy). cbn [snd].
      intros st Hk h'.
      assert (E1 : app_eff (c_eff x) st = upd_store st h (c_val x st)) by (apply functional_extensionality, c_app).
      assert (E2 : app_eff (c_eff y) st = upd_store st h (c_val y st)) by (apply functional_extensionality, c_app).
      rewrite E1, E2, !c_app. destruct (keep_h st Hk) as (d & Ed & Hd).
      unfold c_val. rewrite !pre_upd by assumption. rewrite !upd_at, Ed. cbn [fl].
      destruct (Z.eq_dec h' h) as [->|Hne]; [|rewrite !upd_off by assumption; reflexivity]. rewrite !upd_at. f_equal.
      apply Hcomm; assumption. }
  pose proof (schedule_independence (keep ks s) tes s (keep_ext ks s) Hdet Hks0) as Ha.
  assert (Ets : map fst tes = map c_task xs) by (unfold tes; rewrite map_map; reflexivity).
  assert (Ees : map snd tes = map c_eff xs) by (unfold tes; rewrite map_map; reflexivity).
  rewrite Ets, Ees in Ha. eapply always_weaken; [exact Ha|]. intros s' Hs'.
  split.
  { eapply keep_ext; [intros h'; symmetry; apply Hs'|]. rewrite <- Ees.
    apply (seq_eff_inv (keep ks s) (map fst tes)); [|assumption].
    clear -Hdet. destruct Hdet as [H _]. induction tes as [|p l IH]; [constructor|]. cbn [map]. constructor.
    - apply H. left. reflexivity.
    - apply IH. intros q Hq. apply H. right. assumption. }
  split.
  - rewrite Hs'. rewrite (seq_fold (map c_eff xs) s h (fun k => k <> h)).
    + unfold fold_at. destruct (keep_h s Hks0) as (d & Ed & Hd). rewrite Ed. cbn [fl].
      clear - Hpre Hd Hks0 Hlen Hty.
      assert (G : forall ys d, incl ys xs -> zlen d = n ->
        fold_left (fun b e => match elookup e h with Some f => f (upd_store s h b) | None => b end) (map c_eff ys) (BF d)
        = BF (fold_left (fun d x => F x (map s (pre x)) d) ys d)).
      { induction ys as [|y ys IH]; intros e Hi He; [reflexivity|]. cbn [map fold_left c_eff elookup]. rewrite Z.eqb_refl.
        assert (Hy : In y xs) by (apply Hi; left; reflexivity).
        rewrite (upd_val y (BF e) Hy). cbn [fl].
        apply IH; [intros z Hz; apply Hi; right; assumption|]. apply Hlen; assumption. }
      apply G; [apply incl_refl|assumption].
    + intros e k He Hk. apply in_map_iff in He as (x & <- & _). cbn [c_eff elookup]. destruct (Z.eqb_spec k h); [contradiction|reflexivity].
    + intros e f s1 s2 He Hl Hag. apply in_map_iff in He as (x & <- & Hx). cbn [c_eff elookup] in Hl. rewrite Z.eqb_refl in Hl.
      inversion Hl; subst. unfold c_val. rewrite (Hag h) by auto. rewrite (map_ext_in s1 s2); [reflexivity|].
      intros k Hk. apply Hag. right. intros ->. apply (Hpre x Hx Hk).
  - intros h' Hne. rewrite Hs'. apply seq_frame. intros e He. apply in_map_iff in He as (x & <- & _). cbn [c_eff elookup].
    destruct (Z.eqb_spec h' h); [contradiction|reflexivity].
Qed.
End One.
End Comm.
