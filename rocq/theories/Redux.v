(** * Reduction mode (STARPU_REDUX)

    A task that accesses a handle in reduction mode may work on a private copy of the worker instead
    of the main buffer.  A private copy is created by the initialisation codelet and private copies are
    combined with one another and with the main buffer by the reduction codelet
    (starpu_data_set_reduction_methods, include/nntile/tensor/tensor.hh:164-196).  Everything that is
    left open by this is left open here: how many private copies there are, which task uses which of
    them, when and in which order and grouping they are combined.  Access in another mode has to wait
    until the private copies of the handle are gone. *)
From Coq Require Import FunctionalExtensionality Permutation.
From Verif Require Import Base Spec Geometry Traits TraitsProofs Runtime Ops TensorSem ElemGeneric OneOut AccRuns Sequence Serial KeepRuns.

Section Semantics.
Context {T : Type}.
(** the two codelets *)
Variables (init red : list (buf T) -> res (list (buf T))).

(** Pending tasks, main buffers, private copies. *)
Definition rconf : Type := list (task T) * store T * list (handle * buf T).

(** [t] may start: no earlier pending task conflicts, and only handles accessed in reduction mode have private copies. *)
Definition may_start (l1 : list (task T)) (t : task T) (pv : list (handle * buf T)) : Prop :=
  (forall t', In t' l1 -> ~ conflict t' t) /\
  (forall h m, In (h, m) (t_acc t) -> m <> MREDUX -> m <> MSCRATCH -> ~ In h (map fst pv)).

Inductive rstep : rconf -> rconf -> Prop :=
(* on the main buffers *)
| rs_main l1 t l2 s hv s' pv : may_start l1 t pv -> typed hv s -> exec_task t s hv = Ok s' ->
    rstep (l1 ++ t :: l2, s, pv) (l1 ++ l2, s', pv)
(* on an existing private copy b of h *)
| rs_copy l1 t l2 s hv s' pv h b rest : may_start l1 t pv -> typed hv s -> In (h, MREDUX) (t_acc t) ->
    Permutation pv ((h, b) :: rest) -> exec_task t (upd_store s h b) hv = Ok s' ->
    rstep (l1 ++ t :: l2, s, pv) (l1 ++ l2, upd_store s' h (s h), (h, s' h) :: rest)
(* on a new private copy of h *)
| rs_new l1 t l2 s hv s' pv h junk b : may_start l1 t pv -> typed hv s -> In (h, MREDUX) (t_acc t) ->
    ty junk = ty (s h) -> init [junk] = Ok [b] -> exec_task t (upd_store s h b) hv = Ok s' ->
    rstep (l1 ++ t :: l2, s, pv) (l1 ++ l2, upd_store s' h (s h), (h, s' h) :: pv)
(* combine two private copies *)
| rs_merge ts s pv h a b rest a' b' : Permutation pv ((h, a) :: (h, b) :: rest) -> red [a; b] = Ok [a'; b'] ->
    rstep (ts, s, pv) (ts, s, (h, a') :: rest)
(* combine a private copy into the main buffer *)
| rs_flush ts s pv h b rest a' b' : Permutation pv ((h, b) :: rest) -> red [s h; b] = Ok [a'; b'] ->
    rstep (ts, s, pv) (ts, upd_store s h a', rest).

Inductive rsteps : rconf -> rconf -> Prop :=
| rsteps_refl c : rsteps c c
| rsteps_cons c1 c2 c3 : rstep c1 c2 -> rsteps c2 c3 -> rsteps c1 c3.

(** Nothing that the runtime may decide to do fails. *)
Definition rsafe (c : rconf) : Prop :=
  let '(ts, s, pv) := c in
  (forall l1 t l2 hv, ts = l1 ++ t :: l2 -> may_start l1 t pv -> typed hv s ->
     (exists s', exec_task t s hv = Ok s') /\
     forall h, In (h, MREDUX) (t_acc t) ->
       (forall b, In (h, b) pv -> exists s', exec_task t (upd_store s h b) hv = Ok s') /\
       (forall junk, ty junk = ty (s h) -> exists b s', init [junk] = Ok [b] /\ exec_task t (upd_store s h b) hv = Ok s')) /\
  (forall h a b rest, Permutation pv ((h, a) :: (h, b) :: rest) -> exists a' b', red [a; b] = Ok [a'; b']) /\
  (forall h b rest, Permutation pv ((h, b) :: rest) -> exists a' b', red [s h; b] = Ok [a'; b']).

(** Every execution is free of errors, can always be continued to an end, and ends in a state with P. *)
Definition redux_runs (r : res (list (task T))) (s : store T) (P : store T -> Prop) : Prop :=
  exists ts, r = Ok ts /\ forall ts' s' pv', rsteps (ts, s, []) (ts', s', pv') ->
    rsafe (ts', s', pv') /\ (exists s'', rsteps (ts', s', pv') ([], s'', [])) /\ (ts' = [] -> pv' = [] -> P s').

Lemma redux_weaken r s (P Q : store T -> Prop) : redux_runs r s P -> (forall s', P s' -> Q s') -> redux_runs r s Q.
Proof.
  intros (ts & E & H) HPQ. exists ts. split; [assumption|]. intros ts' s' pv' Hs. destruct (H ts' s' pv' Hs) as (A & B & C). auto.
Qed.
Lemma redux_ends r s (P : store T -> Prop) : redux_runs r s P -> exists ts s', r = Ok ts /\ rsteps (ts, s, []) ([], s', []) /\ P s'.
Proof.
  intros (ts & E & H). destruct (H ts s [] (rsteps_refl _)) as (_ & (s' & Hs') & _). exists ts, s'. split; [assumption|]. split; [assumption|].
  apply (H _ _ _ Hs'); reflexivity.
Qed.
Lemma rsteps_trans c1 c2 c3 : rsteps c1 c2 -> rsteps c2 c3 -> rsteps c1 c3.
Proof. induction 1; intros; [assumption|]. econstructor; [eassumption|auto]. Qed.
Lemma rsteps_snoc c1 c2 c3 : rsteps c1 c2 -> rstep c2 c3 -> rsteps c1 c3.
Proof. intros H1 H2. eapply rsteps_trans; [eassumption|]. econstructor; [eassumption|constructor]. Qed.
End Semantics.

(** Modes with reductions replaced by ordinary updates. *)
Definition unred_mode (m : mode) : mode := match m with MREDUX => MRW | _ => m end.
Definition unred {T} (t : task T) : task T := mkTask (map (fun a => (fst a, unred_mode (snd a))) (t_acc t)) (t_body t).

Lemma unred_exec {T} (t : task T) s hv : exec_task (unred t) s hv = exec_task t s hv.
Proof.
  unfold exec_task, unred. cbn [t_body t_acc]. rewrite map_map.
  rewrite (map_ext (fun x => in_buf s hv (fst x, unred_mode (snd x))) (in_buf s hv)) by (intros [h []]; reflexivity).
  destruct (t_body t _) as [out| |]; [|reflexivity|reflexivity]. bnd. revert out s.
  induction (t_acc t) as [|[h m] l IH]; intros out s; destruct out as [|b out]; cbn [map write_back]; try reflexivity.
  rewrite IH. destruct m; reflexivity.
Qed.
Lemma unred_sequential {T} (ts : list (task T)) s : sequential (map unred ts) s = sequential ts s.
Proof.
  revert s. induction ts as [|t ts IH]; intros s; [reflexivity|]. cbn [map sequential]. rewrite unred_exec.
  destruct (exec_task t s s); [|reflexivity|reflexivity]. bnd. apply IH.
Qed.

Section Main.
Context {T : Type}.
Variables (init red : list (buf T) -> res (list (buf T))) (s0 : store T).
Variables (I : store T -> Prop) (Rh : handle -> Prop) (good : handle -> buf T -> Prop) (plus : buf T -> buf T -> buf T) (e : handle -> buf T).
Hypothesis (Hext : ext_inv I).
Hypothesis (Hty : forall st, I st -> tinv s0 st).
Hypothesis (Hgood : forall st h, I st -> Rh h -> good h (st h)).
Hypothesis (Hupd : forall st h b, I st -> Rh h -> good h b -> I (upd_store st h b)).
Hypothesis (Hplus : forall h a b, Rh h -> good h a -> good h b -> good h (plus a b)).
Hypothesis (Hcomm : forall h a b, Rh h -> good h a -> good h b -> plus a b = plus b a).
Hypothesis (Hassoc : forall h a b c, Rh h -> good h a -> good h b -> good h c -> plus (plus a b) c = plus a (plus b c)).
Hypothesis (He : forall h, Rh h -> good h (e h)).
Hypothesis (Hneut : forall h a c, Rh h -> good h a -> good h c -> plus (plus a (e h)) c = plus a c).
Hypothesis (Hinit : forall h junk, Rh h -> ty junk = ty (s0 h) -> init [junk] = Ok [e h]).
Hypothesis (Hred : forall h a b, Rh h -> good h a -> good h b -> exists b', red [a; b] = Ok [plus a b; b']).

(** A task that adds something to one handle in reduction mode and otherwise only reads. *)
Definition red_task (t : task T) : Prop := exists pre h c, t_acc t = map (fun k => (k, MR)) pre ++ [(h, MREDUX)] /\ ~ In h pre /\ Rh h /\
  forall st d, I st -> good h d -> good h (c (map st pre)) /\ t_body t (map st pre ++ [d]) = Ok (map st pre ++ [plus d (c (map st pre))]).
Definition plain_task (t : task T) : Prop := ordered_task t /\ sound_task I t.

Lemma upd_same (st : store T) h : upd_store st h (st h) = st.
Proof. apply functional_extensionality. intros k. unfold upd_store. destruct (Z.eqb_spec k h); subst; reflexivity. Qed.
Lemma upd_upd (st : store T) h a b : upd_store (upd_store st h a) h b = upd_store st h b.
Proof. apply functional_extensionality. intros k. unfold upd_store. destruct (k =? h); reflexivity. Qed.
Lemma upd_swap (st : store T) h k a b : h <> k -> upd_store (upd_store st h a) k b = upd_store (upd_store st k b) h a.
Proof. intros Hn. apply functional_extensionality. intros j. unfold upd_store. destruct (Z.eqb_spec j h), (Z.eqb_spec j k); congruence. Qed.
Lemma upd_eq (st : store T) h a : upd_store st h a h = a.
Proof. unfold upd_store. rewrite Z.eqb_refl. reflexivity. Qed.
Lemma upd_ne (st : store T) h a k : k <> h -> upd_store st h a k = st k.
Proof. intros Hn. unfold upd_store. destruct (Z.eqb_spec k h); congruence. Qed.
Lemma map_upd (st : store T) h a pre : ~ In h pre -> map (upd_store st h a) pre = map st pre.
Proof. intros Hn. apply map_ext_in. intros k Hk. apply upd_ne. intros ->. contradiction. Qed.

Lemma wb_reads pre (st : store T) h b : write_back (map (fun k => (k, MR)) pre ++ [(h, MREDUX)]) (map st pre ++ [b]) st = Ok (upd_store st h b).
Proof.
  assert (G : forall l, write_back (map (fun k => (k, MR)) l ++ [(h, MREDUX)]) (map st l ++ [b]) st = Ok (upd_store st h b)).
  { induction l as [|k l IH]; cbn [map app write_back]; [reflexivity|]. rewrite upd_same. apply IH. }
  apply G.
Qed.
Lemma red_exec t pre h c st hv : t_acc t = map (fun k => (k, MR)) pre ++ [(h, MREDUX)] -> Rh h ->
  (forall st d, I st -> good h d -> good h (c (map st pre)) /\ t_body t (map st pre ++ [d]) = Ok (map st pre ++ [plus d (c (map st pre))])) ->
  I st -> exec_task t st hv = Ok (upd_store st h (plus (st h) (c (map st pre)))).
Proof.
  intros Ea Hr Hb Hi. unfold exec_task. rewrite Ea, map_app, map_map. cbn [map].
  change (map (fun k => in_buf st hv (k, MR)) pre) with (map st pre). unfold in_buf at 1. cbn [reads snd fst].
  rewrite (proj2 (Hb st (st h) Hi (Hgood st h Hi Hr))). bnd. apply wb_reads.
Qed.

Lemma red_sound t : red_task t -> sound_task I t.
Proof.
  intros (pre & h & c & Ea & Hn & Hr & Hb). split.
  - intros st hv Hi _. eexists. split; [eapply red_exec; eassumption|]. split.
    + apply Hupd; [assumption|assumption|]. apply Hplus; [assumption|apply Hgood; assumption|]. apply (Hb st (st h) Hi (Hgood st h Hi Hr)).
    + intros k Hk. apply upd_ne. intros ->. specialize (Hk MREDUX). rewrite Ea in Hk. discriminate Hk. apply in_or_app. right. left. reflexivity.
  - intros s1 hv1 s1' s2 hv2 s2' I1 I2 _ _ Hag E1 E2 k m Hin Hw. rewrite (red_exec t pre h c s1 hv1 Ea Hr Hb I1) in E1.
    rewrite (red_exec t pre h c s2 hv2 Ea Hr Hb I2) in E2. inversion E1; inversion E2; subst.
    assert (Ek : k = h).
    { rewrite Ea in Hin. apply in_app_or in Hin as [Hin|[Q|[]]]; [|inversion Q; reflexivity].
      apply in_map_iff in Hin as (x & Q & _). inversion Q; subst. discriminate. }
    subst k. rewrite !upd_eq. rewrite (Hag h MREDUX); [|rewrite Ea; apply in_or_app; right; left; reflexivity|reflexivity].
    f_equal. f_equal. apply map_ext_in. intros x Hx. apply (Hag x MR); [|reflexivity]. rewrite Ea. apply in_or_app. left. apply in_map_iff. eauto.
Qed.

Lemma red_eff t pre h c : t_acc t = map (fun k => (k, MR)) pre ++ [(h, MREDUX)] -> ~ In h pre -> Rh h ->
  (forall st d, I st -> good h d -> good h (c (map st pre)) /\ t_body t (map st pre ++ [d]) = Ok (map st pre ++ [plus d (c (map st pre))])) ->
  forall st, I st -> app_eff (eff_of t) st = upd_store st h (plus (st h) (c (map st pre))).
Proof.
  intros Ea Hn Hr Hb st Hi. assert (Ht : red_task t) by (exists pre, h, c; auto).
  destruct (te_run _ _ _ (sound_eff I t Hext (red_sound t Ht)) st st Hi (typed_refl st)) as (s' & E & H).
  rewrite (red_exec t pre h c st st Ea Hr Hb Hi) in E. inversion E; subst. apply functional_extensionality. intros k. symmetry. apply H.
Qed.

Variable (ts : list (task T)).
Hypothesis (Hts : Forall (fun t => plain_task t \/ red_task t) ts).
Hypothesis (Hs0 : I s0).

Lemma ts_sound : Forall (sound_task I) ts.
Proof. eapply Forall_impl; [|exact Hts]. intros t [[_ H]|H]; [assumption|apply red_sound; assumption]. Qed.

Lemma ts_det : detlist I (map (fun t => (t, eff_of t)) ts).
Proof.
  pose proof ts_sound as Hs. rewrite Forall_forall in Hs. rewrite Forall_forall in Hts. split.
  - intros p Hp. apply in_map_iff in Hp as (t & <- & Ht). apply sound_eff; [assumption|apply Hs, Ht].
  - intros p q Hp Hq Hnc. apply in_map_iff in Hp as (t & <- & Ht). apply in_map_iff in Hq as (u & <- & Hu). cbn [fst snd] in *.
    assert (Hno : ~ share_comm t u -> eff_comm I (eff_of t) (eff_of u)).
    { intros Hn. eapply (noshare_comm I t _ u); [apply sound_eff; auto|apply sound_eff; auto|assumption|assumption]. }
    destruct (Hts t Ht) as [[Ot _]|Rt].
    { apply Hno. intros (h & m & H1 & _ & Hm). destruct (Ot h m H1). tauto. }
    destruct (Hts u Hu) as [[Ou _]|Ru].
    { apply Hno. intros (h & m & _ & H1 & Hm). destruct (Ou h m H1). tauto. }
    destruct Rt as (pre & h & c & Ea & Hn & Hr & Hb). destruct Ru as (pre' & h' & c' & Ea' & Hn' & Hr' & Hb').
    destruct (Z.eq_dec h h') as [<-|Hne].
    + assert (X : forall st, I st -> I (upd_store st h (plus (st h) (c (map st pre)))) /\ I (upd_store st h (plus (st h) (c' (map st pre'))))).
      { intros st Hi. pose proof (Hgood st h Hi Hr) as Hg. split; apply Hupd; try assumption; apply Hplus; try assumption;
          [apply (Hb st (st h) Hi Hg)|apply (Hb' st (st h) Hi Hg)]. }
      intros st Hi k. destruct (X st Hi) as [X1 X2]. pose proof (Hgood st h Hi Hr) as Hg.
      assert (G1 : good h (c (map st pre))) by (apply (Hb st (st h) Hi Hg)). assert (G2 : good h (c' (map st pre'))) by (apply (Hb' st (st h) Hi Hg)).
      rewrite (red_eff t pre h c Ea Hn Hr Hb st Hi), (red_eff u pre' h c' Ea' Hn' Hr' Hb' st Hi).
      rewrite (red_eff u pre' h c' Ea' Hn' Hr' Hb' _ X1), (red_eff t pre h c Ea Hn Hr Hb _ X2).
      rewrite !upd_upd, !upd_eq, !map_upd by assumption.
      rewrite !(Hassoc h) by assumption. rewrite (Hcomm h (c (map st pre))) by assumption. reflexivity.
    + apply Hno. intros (k & m & H1 & H2 & Hm). rewrite Ea in H1. rewrite Ea' in H2.
      apply in_app_or in H1 as [H1|[H1|[]]]; [apply in_map_iff in H1 as (? & Q & _); inversion Q; subst; destruct Hm; discriminate|].
      apply in_app_or in H2 as [H2|[H2|[]]]; [apply in_map_iff in H2 as (? & Q & _); inversion Q; subst; destruct Hm; discriminate|].
      congruence.
Qed.

(** Unordered reduction tasks on the main buffers. *)
Lemma ts_always s1 : sequential ts s0 = Ok s1 -> always ts s0 (fun s' => s' = s1).
Proof.
  intros E. destruct (sequential_eff I ts s0 Hext ts_sound Hs0) as (s' & E' & _ & ->). rewrite E in E'. inversion E'; subst.
  pose proof (schedule_independence I _ s0 Hext ts_det Hs0) as Ha. rewrite !map_map in Ha. cbn [fst snd] in Ha. rewrite map_id in Ha.
  eapply always_weaken; [exact Ha|]. intros x Hx. apply functional_extensionality. assumption.
Qed.

(** What the main buffers will be once all private copies are combined. *)
Definition total (pv : list (handle * buf T)) (s : store T) : store T :=
  fold_left (fun s p => upd_store s (fst p) (plus (s (fst p)) (snd p))) pv s.
Definition good_copies (pv : list (handle * buf T)) : Prop := Forall (fun p => Rh (fst p) /\ good (fst p) (snd p)) pv.

Lemma total_I pv s : I s -> good_copies pv -> I (total pv s).
Proof.
  intros Hi Hp. revert s Hi. induction Hp as [|[h b] pv [Hr Hb] Hp IH]; intros s Hi; [assumption|].
  cbn [total fold_left fst snd] in *. apply IH. apply Hupd; [assumption|assumption|]. apply Hplus; [assumption|apply Hgood; assumption|assumption].
Qed.
Lemma total_perm pv pv' s : Permutation pv pv' -> good_copies pv -> I s -> total pv s = total pv' s.
Proof.
  intros P. revert s. induction P as [|[h b] l l' P IH|[h a] [k b] l|l l' l'' P1 IH1 P2 IH2]; intros s Hp Hi.
  - reflexivity.
  - inversion Hp as [|? ? [Hr Hb] Hp']; subst. cbn [total fold_left fst snd] in *. apply IH; [assumption|].
    apply Hupd; [assumption|assumption|]. apply Hplus; [assumption|apply Hgood; assumption|assumption].
  - inversion Hp as [|? ? [Hr Ha] Hp']; subst. inversion Hp' as [|? ? [Hr' Hb] Hp'']; subst. cbn [total fold_left fst snd] in *. f_equal.
    destruct (Z.eq_dec h k) as [->|Hne].
    + rewrite !upd_upd, !upd_eq. pose proof (Hgood s k Hi Hr) as Hg. rewrite !(Hassoc k) by assumption. rewrite (Hcomm k a b) by assumption. reflexivity.
    + rewrite upd_swap by congruence. rewrite !upd_ne by congruence. reflexivity.
  - etransitivity; [apply IH1; assumption|]. apply IH2; [|assumption]. eapply Permutation_Forall; eassumption.
Qed.
Lemma total_at pv s h : ~ In h (map fst pv) -> total pv s h = s h.
Proof.
  revert s. induction pv as [|[k b] pv IH]; intros s Hn; [reflexivity|]. cbn [total fold_left fst snd map In] in *.
  fold (total pv (upd_store s k (plus (s k) b))). rewrite IH by tauto. apply upd_ne. intros ->. apply Hn. left. reflexivity.
Qed.
Lemma total_local pv s s' h : s h = s' h -> total pv s h = total pv s' h.
Proof.
  revert s s'. induction pv as [|[k b] pv IH]; intros s s' E; [assumption|]. cbn [total fold_left fst snd].
  apply IH. unfold upd_store. destruct (Z.eqb_spec h k) as [->|]; [rewrite E; reflexivity|assumption].
Qed.
Lemma total_add pv s h c : good_copies pv -> I s -> Rh h -> good h c ->
  total pv (upd_store s h (plus (s h) c)) = upd_store (total pv s) h (plus (total pv s h) c).
Proof.
  intros Hp Hi Hr Hc. change (total pv (upd_store s h (plus (s h) c))) with (total ((h, c) :: pv) s).
  rewrite (total_perm ((h, c) :: pv) (pv ++ [(h, c)])); [|apply Permutation_cons_append|constructor; [split; assumption|assumption]|assumption].
  unfold total. rewrite fold_left_app. reflexivity.
Qed.

Definition inv (c : rconf) : Prop := let '(ts', s', pv') := c in
  incl ts' ts /\ I s' /\ good_copies pv' /\ steps (ts, s0) (ts', total pv' s').

Lemma incl_drop (l1 : list (task T)) t l2 : incl (l1 ++ t :: l2) ts -> incl (l1 ++ l2) ts.
Proof. intros H x Hx. apply H. apply in_app_or in Hx. apply in_or_app. destruct Hx; [left|right; right]; assumption. Qed.
Lemma mid_in (l1 : list (task T)) t l2 : incl (l1 ++ t :: l2) ts -> In t ts.
Proof. intros H. apply H. apply in_or_app. right. left. reflexivity. Qed.
Lemma typed_total hv s pv : typed hv s -> I s -> good_copies pv -> typed hv (total pv s).
Proof.
  intros Ht Hi Hp h. rewrite Ht. rewrite (Hty _ Hi h). symmetry. apply Hty. apply total_I; assumption.
Qed.
(** All tasks, on the main buffers. *)
Lemma red_in t h m : red_task t -> In (h, m) (t_acc t) -> m = MREDUX -> Rh h.
Proof.
  intros (pre & k & c & Ea & _ & Hr & _) Hin ->. rewrite Ea in Hin. apply in_app_or in Hin as [Hin|[Q|[]]].
  - apply in_map_iff in Hin as (? & Q & _). discriminate.
  - inversion Q; subst. assumption.
Qed.
Lemma pre_nocopy l1 t pv pre h (s : store T) : may_start l1 t pv -> t_acc t = map (fun k => (k, MR)) pre ++ [(h, MREDUX)] ->
  map (total pv s) pre = map s pre.
Proof.
  intros [_ Hm] Ea. apply map_ext_in. intros k Hk. apply total_at. apply (Hm k MR); try discriminate. rewrite Ea. apply in_or_app. left. apply in_map_iff. eauto.
Qed.

Lemma ty_good (h : handle) b (s : store T) : I s -> Rh h -> good h b -> ty b = ty (s0 h).
Proof. intros Hi Hr Hb. rewrite <- (Hty _ (Hupd s h b Hi Hr Hb) h). rewrite upd_eq. reflexivity. Qed.

Lemma inv_step c1 c2 : rstep init red c1 c2 -> inv c1 -> inv c2.
Proof.
  intros St. destruct St as [l1 t l2 s hv s' pv Hm Hhv E|l1 t l2 s hv s' pv h b rest Hm Hhv Hin Hpm E|l1 t l2 s hv s' pv h junk b Hm Hhv Hin Hj Ei E
    |us s pv h a b rest a' b' Hpm E|us s pv h b rest a' b' Hpm E]; intros (Hincl & Hi & Hp & Hst).
  - pose proof (mid_in _ _ _ Hincl) as Hint. rewrite Forall_forall in Hts.
    assert (St : step (l1 ++ t :: l2, total pv s) (l1 ++ l2, total pv s') /\ I s').
    { destruct (Hts t Hint) as [[Ot So]|(pre & h & c & Ea & Hn & Hr & Hb)].
      - destruct So as [So1 So2]. destruct (So1 s hv Hi Hhv) as (s1 & E1 & Hi1 & Hf1). assert (s1 = s') by congruence. subst s1. split; [|assumption].
        destruct (So1 (total pv s) hv (total_I _ _ Hi Hp) (typed_total _ _ _ Hhv Hi Hp)) as (s2 & E2 & Hi2 & Hf2).
        assert (Hnc : forall k m, In (k, m) (t_acc t) -> m <> MSCRATCH -> ~ In k (map fst pv)).
        { intros k m Hk Hsc. apply (proj2 Hm k m); [assumption|apply (Ot k m Hk)|assumption]. }
        assert (s2 = total pv s').
        { apply functional_extensionality. intros k. destruct (eff_of_lookup t k) as [[_ (m & Hk & Hw)]|[_ Hw]].
          - rewrite total_at by (apply (Hnc k m Hk); intros ->; discriminate).
            apply (So2 (total pv s) hv s2 s hv s' (total_I _ _ Hi Hp) Hi (typed_total _ _ _ Hhv Hi Hp) Hhv) with (m := m); try assumption.
            intros k' m' Hk' Hr'. apply total_at. apply (Hnc k' m' Hk'). intros ->. discriminate.
          - rewrite Hf2 by assumption. apply total_local. symmetry. apply Hf1. assumption. }
        subst s2. apply (step_run l1 t l2 (total pv s) hv); [apply Hm|apply typed_total; assumption|assumption].
      - rewrite (red_exec t pre h c s hv Ea Hr Hb Hi) in E. inversion E; subst s'.
        pose proof (Hgood s h Hi Hr) as Hg. assert (Hc : good h (c (map s pre))) by (apply (Hb s (s h) Hi Hg)). split.
        + apply (step_run l1 t l2 (total pv s) hv); [apply Hm|apply typed_total; assumption|].
          rewrite (red_exec t pre h c (total pv s) hv Ea Hr Hb (total_I _ _ Hi Hp)). rewrite (pre_nocopy l1 t pv pre h s Hm Ea).
          f_equal. symmetry. apply total_add; assumption.
        + apply Hupd; auto. }
    destruct St as [St Hi']. split; [eapply incl_drop; eassumption|]. split; [assumption|]. split; [assumption|].
    eapply steps_snoc; eassumption.
  - pose proof (mid_in _ _ _ Hincl) as Hint. rewrite Forall_forall in Hts.
    destruct (Hts t Hint) as [[Ot _]|(pre & h' & c & Ea & Hn & Hr & Hb)]; [destruct (Ot h MREDUX Hin); congruence|].
    assert (h' = h).
    { rewrite Ea in Hin. apply in_app_or in Hin as [Q|[Q|[]]]; [apply in_map_iff in Q as (? & Q & _); discriminate|congruence]. }
    subst h'. assert (Hp' : good_copies ((h, b) :: rest)) by (eapply Permutation_Forall; eassumption).
    inversion Hp' as [|? ? [_ Hgb] Hpr]; subst. cbn [fst snd] in Hgb.
    assert (Hib : I (upd_store s h b)) by (apply Hupd; assumption).
    rewrite (red_exec t pre h c _ hv Ea Hr Hb Hib) in E. rewrite upd_eq, upd_upd, map_upd in E by assumption. inversion E; subst s'.
    rewrite upd_upd, upd_same, upd_eq. pose proof (Hgood s h Hi Hr) as Hg. assert (Hc : good h (c (map s pre))) by (apply (Hb s (s h) Hi Hg)).
    split; [eapply incl_drop; eassumption|]. split; [assumption|]. split; [constructor; [split; [assumption|apply Hplus; assumption]|assumption]|].
    eapply steps_snoc; [exact Hst|]. apply (step_run l1 t l2 (total pv s) hv); [apply Hm|apply typed_total; assumption|].
    rewrite (red_exec t pre h c (total pv s) hv Ea Hr Hb (total_I _ _ Hi Hp)). rewrite (pre_nocopy l1 t pv pre h s Hm Ea). f_equal.
    rewrite <- total_add by assumption.
    rewrite (total_perm pv ((h, b) :: rest)) by (assumption || apply Hupd; auto).
    cbn [total fold_left fst snd]. f_equal. rewrite !upd_upd, !upd_eq. f_equal.
    rewrite (Hassoc h) by assumption. rewrite (Hcomm h (c (map s pre))) by assumption. reflexivity.
  - pose proof (mid_in _ _ _ Hincl) as Hint. rewrite Forall_forall in Hts.
    destruct (Hts t Hint) as [[Ot _]|(pre & h' & c & Ea & Hn & Hr & Hb)]; [destruct (Ot h MREDUX Hin); congruence|].
    assert (h' = h).
    { rewrite Ea in Hin. apply in_app_or in Hin as [Q|[Q|[]]]; [apply in_map_iff in Q as (? & Q & _); discriminate|congruence]. }
    subst h'. rewrite (Hinit h junk Hr) in Ei by (rewrite Hj; apply Hty; assumption). inversion Ei; subst b.
    assert (Hib : I (upd_store s h (e h))) by (apply Hupd; auto).
    rewrite (red_exec t pre h c _ hv Ea Hr Hb Hib) in E. rewrite upd_eq, upd_upd, map_upd in E by assumption. inversion E; subst s'.
    rewrite upd_upd, upd_same, upd_eq. pose proof (Hgood s h Hi Hr) as Hg. assert (Hc : good h (c (map s pre))) by (apply (Hb s (s h) Hi Hg)).
    split; [eapply incl_drop; eassumption|]. split; [assumption|]. split; [constructor; [split; [assumption|apply Hplus; auto]|assumption]|].
    eapply steps_snoc; [exact Hst|]. apply (step_run l1 t l2 (total pv s) hv); [apply Hm|apply typed_total; assumption|].
    rewrite (red_exec t pre h c (total pv s) hv Ea Hr Hb (total_I _ _ Hi Hp)). rewrite (pre_nocopy l1 t pv pre h s Hm Ea). f_equal.
    rewrite <- total_add by assumption. cbn [total fold_left fst snd].
    rewrite <- (Hassoc h) by auto. rewrite (Hneut h) by assumption. reflexivity.
  - assert (Hp' : good_copies ((h, a) :: (h, b) :: rest)) by (eapply Permutation_Forall; eassumption).
    inversion Hp' as [|? ? [Hr Ha] Hp1]; subst. inversion Hp1 as [|? ? [_ Hb] Hp2]; subst. cbn [fst snd] in *.
    destruct (Hred h a b Hr Ha Hb) as (b2 & E2). rewrite E in E2. inversion E2; subst a'.
    split; [assumption|]. split; [assumption|]. split; [constructor; [split; [assumption|apply Hplus; assumption]|assumption]|].
    rewrite (total_perm pv ((h, a) :: (h, b) :: rest)) in Hst by assumption. cbn [total fold_left fst snd] in *.
    rewrite upd_upd, upd_eq in Hst. rewrite (Hassoc h) in Hst by (try assumption; apply Hgood; assumption). assumption.
  - assert (Hp' : good_copies ((h, b) :: rest)) by (eapply Permutation_Forall; eassumption).
    inversion Hp' as [|? ? [Hr Hb] Hp1]; subst. cbn [fst snd] in *.
    pose proof (Hgood s h Hi Hr) as Hg. destruct (Hred h (s h) b Hr Hg Hb) as (b2 & E2). rewrite E in E2. inversion E2; subst a'.
    split; [assumption|]. split; [apply Hupd; auto|]. split; [assumption|].
    rewrite (total_perm pv ((h, b) :: rest)) in Hst by assumption. exact Hst.
Qed.

Lemma inv_steps c1 c2 : rsteps init red c1 c2 -> inv c1 -> inv c2.
Proof. induction 1; intros; [assumption|]. apply IHrsteps. eapply inv_step; eassumption. Qed.

Lemma inv_safe c : inv c -> rsafe init red c.
Proof.
  destruct c as [[ts' s] pv]. intros (Hincl & Hi & Hp & _). split; [|split].
  - intros l1 t l2 hv -> Hm Hhv. pose proof (mid_in _ _ _ Hincl) as Hint. pose proof ts_sound as Hs. rewrite Forall_forall in Hs, Hts. split.
    + destruct (Hs t Hint) as [S1 _]. destruct (S1 s hv Hi Hhv) as (s' & E & _). eauto.
    + intros h Hin. destruct (Hts t Hint) as [[Ot _]|Rt]; [destruct (Ot h MREDUX Hin); congruence|].
      pose proof (red_in t h MREDUX Rt Hin eq_refl) as Hr.
      assert (G : forall b, good h b -> exists s', exec_task t (upd_store s h b) hv = Ok s').
      { intros b Hb. destruct (Hs t Hint) as [S1 _]. destruct (S1 (upd_store s h b) hv (Hupd s h b Hi Hr Hb)) as (s' & E & _); [|eauto].
        intros k. rewrite Hhv. unfold upd_store. destruct (Z.eqb_spec k h) as [->|]; [|reflexivity]. rewrite (ty_good h b s) by assumption. apply Hty. assumption. }
      split.
      * intros b Hb. apply G. unfold good_copies in Hp. rewrite Forall_forall in Hp. apply (Hp (h, b) Hb).
      * intros junk Hj. exists (e h). destruct (G (e h) (He h Hr)) as (s' & E). exists s'. split; [|assumption].
        apply Hinit; [assumption|]. rewrite Hj. apply Hty. assumption.
  - intros h a b rest P. assert (Hp' : good_copies ((h, a) :: (h, b) :: rest)) by (eapply Permutation_Forall; eassumption).
    inversion Hp' as [|? ? [Hr Ha] Hp1]; subst. inversion Hp1 as [|? ? [_ Hb] Hp2]; subst. cbn [fst snd] in *.
    destruct (Hred h a b Hr Ha Hb) as (b2 & E2). eauto.
  - intros h b rest P. assert (Hp' : good_copies ((h, b) :: rest)) by (eapply Permutation_Forall; eassumption).
    inversion Hp' as [|? ? [Hr Hb] Hp1]; subst. cbn [fst snd] in *.
    destruct (Hred h (s h) b Hr (Hgood s h Hi Hr) Hb) as (b2 & E2). eauto.
Qed.

Lemma inv_ends ts' s pv : inv (ts', s, pv) -> exists s', rsteps init red (ts', s, pv) ([], s', []).
Proof.
  revert s pv. assert (F : forall us pv s, inv (us, s, pv) -> exists s', rsteps init red (us, s, pv) (us, s', [])).
  { intros us. induction pv as [|[h b] pv IH]; intros s Hi; [exists s; constructor|].
    destruct (inv_safe _ Hi) as (_ & _ & S3). destruct (S3 h b pv (Permutation_refl _)) as (a' & b' & E).
    assert (St : rstep init red (us, s, (h, b) :: pv) (us, upd_store s h a', pv)) by (eapply rs_flush; [apply Permutation_refl|eassumption]).
    destruct (IH _ (inv_step _ _ St Hi)) as (s' & Hs'). exists s'. econstructor; eassumption. }
  induction ts' as [|t ts' IH]; intros s pv Hi.
  - apply F. assumption.
  - destruct (F _ _ _ Hi) as (s1 & H1). pose proof (inv_steps _ _ H1 Hi) as Hi1.
    assert (Hm : may_start [] t []) by (split; [intros ? []|intros ? ? ? ? ? []]).
    destruct (inv_safe _ Hi1) as (S1 & _ & _). destruct (S1 [] t ts' s1 eq_refl Hm (typed_refl s1)) as [(s2 & E) _].
    assert (St : rstep init red (t :: ts', s1, []) (ts', s2, [])) by (apply (rs_main init red [] t ts' s1 s1 s2 []); [assumption|apply typed_refl|assumption]).
    destruct (IH s2 [] (inv_step _ _ St Hi1)) as (s' & Hs'). exists s'. eapply rsteps_trans; [exact H1|]. econstructor; eassumption.
Qed.

Theorem redux_sequential s1 (P : store T -> Prop) : sequential ts s0 = Ok s1 -> P s1 -> redux_runs init red (Ok ts) s0 P.
Proof.
  intros Es HP. exists ts. split; [reflexivity|]. intros ts' s' pv' Hs.
  assert (Hi0 : inv (ts, s0, [])) by (split; [apply incl_refl|]; split; [assumption|]; split; [constructor|constructor]).
  pose proof (inv_steps _ _ Hs Hi0) as Hi. split; [apply inv_safe; assumption|]. split; [apply inv_ends; assumption|].
  intros -> ->. destruct Hi as (_ & _ & _ & Hst). cbn [total fold_left] in Hst. destruct (ts_always s1 Es [] s' Hst) as [_ X]. rewrite X by reflexivity. assumption.
Qed.
End Main.
