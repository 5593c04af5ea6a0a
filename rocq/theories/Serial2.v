(** * Serializability with tasks that may change places

    As Serial.v, but two tasks that commute on the same handle are also allowed in the two groups
    when executing them in either order gives the same state. *)
From Coq Require Import Reals Lra FunctionalExtensionality.
From Verif Require Import Base Spec Geometry Traits TraitsProofs Runtime Ops RealOps TensorSem ElemGeneric OneOut Serial NdRuns AnyRuns XReals SliceOps LossOps Sequence.
Local Close Scope R_scope.
Local Open Scope Z_scope.

Section Swap.
Context {T : Type}.
Local Notation hview := (handle -> buf T).
Variable s0 : store T.

Definition succ (t : task T) (s : store T) (hv : hview) : Prop := exists s', exec_task t s hv = Ok s'.
Definition half (t1 t2 : task T) : Prop := forall s hv1 hv2 s1, tinv s0 s -> typed hv1 s0 -> typed hv2 s0 -> exec_task t1 s hv1 = Ok s1 ->
  (succ t2 s1 hv2 <-> succ t2 s hv2) /\
  forall s2, exec_task t2 s1 hv2 = Ok s2 -> exists s1', exec_task t2 s hv2 = Ok s1' /\ exec_task t1 s1' hv1 = Ok s2.
(** The tasks may change places. *)
Definition swap (t1 t2 : task T) : Prop := half t1 t2 /\ half t2 t1.
Lemma swap_sym t1 t2 : swap t1 t2 -> swap t2 t1.
Proof. intros [H1 H2]. split; assumption. Qed.
Lemma indep_swap t1 t2 : ok_task s0 t1 -> ok_task s0 t2 -> indep t1 t2 -> swap t1 t2.
Proof.
  assert (G : forall t1 t2, ok_task s0 t1 -> ok_task s0 t2 -> indep t1 t2 -> half t1 t2).
  { intros a b Ka Kb Hn s hv1 hv2 s1 Hi T1 T2 E1. split.
    - unfold succ. rewrite !exec_ok_iff. rewrite (in_bufs s0 a b s hv1 s1 hv2 Ka Hn Hi (proj2 (tinv_typed s0 s hv1 Hi) T1) E1). reflexivity.
    - intros s2 E2. apply (commute2 s0 a hv1 b hv2 s s1 s2); assumption. }
  intros K1 K2 Hn. split; apply G; try assumption. apply indep_sym. assumption.
Qed.
Definition cross2 (ts1 ts2 : list (task T)) : Prop := forall t1 t2, In t1 ts1 -> In t2 ts2 -> nc t1 t2 -> swap t1 t2.

Lemma move_front2 l t hv s s1 s2 : ok_task s0 t ->
  Forall (fun p => ok_task s0 (fst p) /\ typed (snd p) s0 /\ swap (fst p) t) l ->
  typed hv s0 -> tinv s0 s -> run_seq l s = Ok s1 -> exec_task t s1 hv = Ok s2 ->
  exists s', exec_task t s hv = Ok s' /\ run_seq l s' = Ok s2.
Proof.
  intros Kt Hl Ht. revert s. induction Hl as [|[t1 hv1] l (K1 & H1 & N1) Hl IH]; intros s Hi E1 E2; cbn [fst snd] in *.
  - cbn [run_seq] in *. inversion E1; subst. eauto.
  - cbn [run_seq] in *. destruct (exec_task t1 s hv1) as [sa| |] eqn:Ea; try discriminate. rewrite bind_Ok in E1.
    destruct (K1 s hv1 sa Hi (proj2 (tinv_typed s0 s hv1 Hi) H1) Ea) as [Ia _].
    destruct (IH sa Ia E1 E2) as (sb & Eb & Rb).
    destruct (proj2 (proj1 N1 s hv1 hv sa Hi H1 Ht Ea) sb Eb) as (sc & Ec & Ed).
    exists sc. split; [assumption|]. rewrite Ed, bind_Ok. assumption.
Qed.
(** Success of [t] does not depend on whether tasks it may change places with have run. *)
Lemma succ_seq k t hv : Forall (fun p => ok_task s0 (fst p) /\ typed (snd p) s0 /\ swap (fst p) t) k -> typed hv s0 ->
  forall v w, tinv s0 v -> run_seq k v = Ok w -> (succ t w hv <-> succ t v hv).
Proof.
  intros Hk Ht. induction Hk as [|[x hx] k (A1 & A2 & A3) Hk IH]; intros v w Hv Hr; cbn [run_seq fst snd] in *.
  - inversion Hr; reflexivity.
  - destruct (exec_task x v hx) as [v'| |] eqn:Ev; try discriminate. rewrite bind_Ok in Hr.
    destruct (A1 v hx v' Hv (proj2 (tinv_typed s0 v hx Hv) A2) Ev) as [Hv' _].
    rewrite (IH v' w Hv' Hr). apply (proj1 A3 v hx hv v'); assumption.
Qed.

(** Schedule of ts1 ++ ts2: the part of ts1 can be done first. *)
Lemma sched_split2 ts1 ts2 l ts' s s' : cross2 ts1 ts2 -> sched (ts1 ++ ts2) l ts' -> okl s0 l -> tinv s0 s -> run_seq l s = Ok s' ->
  exists k1 k2 r1 r2 u, ts' = r1 ++ r2 /\ sched ts1 k1 r1 /\ sched ts2 k2 r2 /\ okl s0 k1 /\ okl s0 k2 /\
    run_seq k1 s = Ok u /\ run_seq k2 u = Ok s' /\ (forall p t, In p k2 -> In t r1 -> nc t (fst p)).
Proof.
  intros Hx H. remember (ts1 ++ ts2) as ts eqn:Ets. revert s'. induction H as [ts|ts l l1 t hv l2 H IH Hn]; intros s' Hol Hi Hr.
  - cbn in Hr. inversion Hr; subst. exists [], [], ts1, ts2, s'. split; [reflexivity|]. split; [constructor|]. split; [constructor|]. split; [constructor|]. split; [constructor|]. split; [reflexivity|]. split; [reflexivity|]. intros p t [].
  - apply Forall_app in Hol as [Hol Ht]. inversion Ht as [|? ? (Kt & Tt) _]; subst. cbn [fst snd] in *.
    rewrite run_seq_app in Hr. destruct (run_seq l s) as [sa| |] eqn:Ea; try discriminate. rewrite bind_Ok in Hr.
    cbn [run_seq] in Hr. destruct (exec_task t sa hv) as [sb| |] eqn:Eb; try discriminate. rewrite bind_Ok in Hr. inversion Hr; subst.
    destruct (IH eq_refl sa Hol Hi eq_refl) as (k1 & k2 & r1 & r2 & u & Er & S1 & S2 & O1 & O2 & R1 & R2 & N12). clear IH.
    assert (Iu : tinv s0 u) by (apply (run_seq_tinv s0 k1 s u); assumption).
    (* is t in r1 or in r2? *)
    assert (Cases : (exists r1b, r1 = l1 ++ t :: r1b /\ l2 = r1b ++ r2) \/ (exists r2a, l1 = r1 ++ r2a /\ r2 = r2a ++ t :: l2)).
    { clear - Er. revert r1 Er. induction l1 as [|x l1 IHl]; intros r1 Er; destruct r1 as [|y r1]; cbn [app] in *.
      - right. exists []. auto.
      - inversion Er; subst. left. exists r1. auto.
      - right. exists (x :: l1). auto.
      - inversion Er; subst. destruct (IHl _ H1) as [(a & -> & ->)|(a & -> & ->)]; [left|right]; eauto. }
    destruct Cases as [(r1b & -> & ->)|(r2a & -> & ->)].
    + (* t belongs to ts1: move it before k2 *)
      assert (F2 : Forall (fun p => ok_task s0 (fst p) /\ typed (snd p) s0 /\ swap (fst p) t) k2).
      { rewrite Forall_forall. intros p Hp. unfold okl in O2. rewrite Forall_forall in O2. destruct (O2 p Hp) as (A2 & A3).
        assert (Hin : In t (l1 ++ t :: r1b)) by (apply in_or_app; right; left; reflexivity).
        split; [assumption|]. split; [assumption|]. apply swap_sym. apply Hx; [apply (sched_incl _ _ _ S1); assumption|apply (sched_incl _ _ _ S2); assumption|].
        apply N12; assumption. }
      destruct (move_front2 k2 t hv u sa s' Kt F2 Tt Iu R2 Eb) as (u' & Eu & Ru).
      exists (k1 ++ [(t, hv)]), k2, (l1 ++ r1b), r2, u'. rewrite app_assoc. split; [reflexivity|].
      split; [apply sched_snoc; assumption|]. split; [assumption|].
      split; [apply Forall_app; split; [assumption|constructor; [cbn; auto|constructor]]|]. split; [assumption|].
      split; [rewrite run_seq_app, R1; bnd; cbn [run_seq]; rewrite Eu; reflexivity|]. split; [assumption|].
      intros p x Hp Hy. apply N12; [assumption|]. apply in_app_or in Hy as [Hy|Hy]; apply in_or_app; [left|right; right]; assumption.
    + exists k1, (k2 ++ [(t, hv)]), r1, (r2a ++ l2), u. rewrite app_assoc. split; [reflexivity|]. split; [assumption|].
      split; [apply sched_snoc; [assumption|]; intros x Hy; apply Hn; apply in_or_app; right; assumption|].
      split; [assumption|]. split; [apply Forall_app; split; [assumption|constructor; [cbn; auto|constructor]]|].
      split; [assumption|]. split; [rewrite run_seq_app, R2; bnd; cbn [run_seq]; rewrite Eb; reflexivity|].
      intros p x Hp Hy. apply in_app_or in Hp as [Hp|[<-|[]]]; [apply N12; assumption|]. cbn [fst].
      apply Hn. apply in_or_app. left. assumption.
Qed.

(** Two groups of tasks submitted one after the other without waiting in between. *)
Theorem always_app_swap ts1 ts2 s (P Q : store T -> Prop) : cross2 ts1 ts2 ->
  Forall (ok_task s0) ts1 -> Forall (ok_task s0) ts2 -> tinv s0 s ->
  always ts1 s P -> (forall s1, tinv s0 s1 -> P s1 -> always ts2 s1 Q) -> always (ts1 ++ ts2) s Q.
Proof.
  intros Hcr K1 K2 Hi A1 A2 ts' s' Hst.
  destruct (steps_sched s0 (ts1 ++ ts2) s ts' s') as (l & Hl & Ol & Rl); [apply Forall_app; auto|assumption..|].
  destruct (sched_split2 ts1 ts2 l ts' s s' Hcr Hl Ol Hi Rl) as (k1 & k2 & r1 & r2 & u & -> & S1 & S2 & Q1 & Q2 & R1 & R2 & N12).
  assert (Iu : tinv s0 u) by (apply (run_seq_tinv s0 k1 s u); assumption).
  assert (Is' : tinv s0 s') by (apply (run_seq_tinv s0 k2 u); assumption).
  pose proof (sched_steps s0 ts1 k1 r1 s u S1 Q1 Hi R1) as St1.
  assert (Fr1 : forall t, In t r1 -> ok_task s0 t).
  { intros t Ht. apply (sched_incl _ _ _ S1) in Ht. rewrite Forall_forall in K1. auto. }
  assert (X12 : forall p t, In p k2 -> In t r1 -> swap t (fst p)).
  { intros p t Hp Ht. apply Hcr; [apply (sched_incl _ _ _ S1); assumption|apply (sched_incl _ _ _ S2); assumption|]. apply N12; assumption. }
  assert (Fk2 : forall t, In t r1 -> Forall (fun p => ok_task s0 (fst p) /\ typed (snd p) s0 /\ swap (fst p) t) k2).
  { intros t Ht. rewrite Forall_forall. intros p Hp. unfold okl in Q2. rewrite Forall_forall in Q2. destruct (Q2 p Hp) as (B2 & B3).
    split; [assumption|]. split; [assumption|]. apply swap_sym. apply X12; assumption. }
  split.
  - intros lA t lB hv E Hn Hty. cbn [fst snd] in *.
    assert (Tt : typed hv s0) by (apply (tinv_typed s0 s' hv Is'); assumption).
    assert (Cases : (exists r1b, r1 = lA ++ t :: r1b) \/ (exists r2a, lA = r1 ++ r2a /\ r2 = r2a ++ t :: lB)).
    { clear - E. revert r1 E. induction lA as [|x lA IHl]; intros r1 E; destruct r1 as [|y r1]; cbn [app] in *.
      - right. exists []. auto.
      - inversion E; subst. left. exists r1. auto.
      - right. exists (x :: lA). auto.
      - inversion E; subst. destruct (IHl _ H1) as [(a & ->)|(a & -> & ->)]; [left|right]; eauto. }
    destruct Cases as [(r1b & ->)|(r2a & -> & ->)].
    + destruct (A1 _ _ St1) as [Sf _].
      assert (Hin : In t (lA ++ t :: r1b)) by (apply in_or_app; right; left; reflexivity).
      apply (succ_seq k2 t hv (Fk2 t Hin) Tt u s' Iu R2).
      apply (Sf lA t r1b hv eq_refl Hn (proj2 (tinv_typed s0 u hv Iu) Tt)).
    + (* finish ts1 first *)
      destruct (always_terminates _ _ _ (always_here _ _ _ _ _ A1 St1)) as (ue & Ste & Pe).
      destruct (steps_sched s0 r1 u [] ue) as (k3 & S3 & Q3 & R3); [rewrite Forall_forall; intros; apply Fr1; assumption|assumption..|].
      assert (Ie : tinv s0 ue) by (apply (run_seq_tinv s0 k3 u ue); assumption).
      (* run k3 after k2, then k2 after k3 *)
      assert (Swap : forall k, okl s0 k -> (forall p, In p k -> In (fst p) r1) -> forall v w, tinv s0 v -> run_seq k2 v = Ok w ->
         forall v', run_seq k v = Ok v' -> exists w', run_seq k w = Ok w' /\ run_seq k2 v' = Ok w').
      { clear - Q2 Fk2. induction k as [|[x hx] k IHk]; intros Hok Hin v w Hv Hr v' Hv'; cbn [run_seq] in *.
        - inversion Hv'; subst. eauto.
        - inversion Hok as [|? ? (A2 & A3) Hok']; subst. cbn [fst snd] in *.
          destruct (exec_task x v hx) as [va| |] eqn:Ev; try discriminate. rewrite bind_Ok in Hv'.
          pose proof (proj2 (tinv_typed s0 v hx Hv) A3) as A3'. destruct (A2 v hx va Hv A3' Ev) as [Hva _].
          assert (F2 := Fk2 x (Hin (x, hx) (or_introl eq_refl))).
          (* x succeeds after k2 *)
          assert (Hx : exists wa, exec_task x w hx = Ok wa).
          { apply (succ_seq k2 x hx F2 A3 v w Hv Hr). exists va. assumption. }
          destruct Hx as (wa & Ewa). destruct (move_front2 k2 x hx v w wa A2 F2 A3 Hv Hr Ewa) as (va' & Eva & Rva).
          assert (va' = va) by congruence. subst va'.
          destruct (IHk Hok' (fun p Hp => Hin p (or_intror Hp)) va wa Hva Rva v' Hv') as (w' & W1 & W2).
          exists w'. rewrite Ewa, bind_Ok. auto. }
      destruct (Swap k3 Q3 (proj2 (sched_incl _ _ _ S3)) u s' Iu R2 ue R3) as (we & We1 & We2).
      pose proof (sched_steps s0 ts2 k2 (r2a ++ t :: lB) ue we S2 Q2 Ie We2) as St2.
      destruct (A2 ue Ie Pe _ _ St2) as [Sf _].
      assert (Iw : tinv s0 we) by (apply (run_seq_tinv s0 k2 ue we); assumption).
      apply (succ_seq k3 t hv) with (v := s') (w := we); try assumption.
      * rewrite Forall_forall. intros p Hp. unfold okl in Q3. rewrite Forall_forall in Q3. destruct (Q3 p Hp) as (B2 & B3).
        split; [assumption|]. split; [assumption|]. pose proof (proj2 (sched_incl _ _ _ S3) p Hp) as Hp'. apply Hcr.
        { apply (proj1 (sched_incl _ _ _ S1)). assumption. }
        { apply (proj1 (sched_incl _ _ _ S2)). apply in_or_app. right. left. reflexivity. }
        apply Hn. apply in_or_app. left. assumption.
      * apply (Sf r2a t lB hv eq_refl).
        { intros y Hy. apply Hn. apply in_or_app. right. assumption. }
        { apply (tinv_typed s0 we hv Iw). assumption. }
  - intros E. apply app_eq_nil in E as [-> ->].
    destruct (A1 _ _ St1) as [_ P1]. pose proof (sched_steps s0 ts2 k2 [] u s' S2 Q2 Iu R2) as St2.
    apply (A2 u Iu (P1 eq_refl) _ _ St2). reflexivity.
Qed.
End Swap.

(** ** Accumulation of the loss: total_sum_accum tasks may change places *)
Lemma x_add_swap v x y : x_add (x_add v x) y = x_add (x_add v y) x.
Proof. destruct v, x, y; cbn; try reflexivity. f_equal. lra. Qed.
Lemma x_sub_add v x : x_sub v x = x_add v (x_neg x).
Proof. destruct v, x; cbn; reflexivity. Qed.

(** The task accumulates into a handle it does not read otherwise. *)
Definition tsum (t : task XR) : Prop := exists al n m a b c d, t = total_sum_accum_submit al n m a b c d /\ ~ In d [a; b; c].

Definition ts_acc (n m : Z) (l y : list XR) (lab : list Z) : res (XR * XR) :=
  for_ 0 m (fun i st =>
      x <- rd l i ;;
      let st := kahan x st in
      k <- rd lab i ;;
      y <- rd y (k + i * n) ;;
      Ok (kahan (o_neg y) st)) (o_zero, o_zero).
Definition ts_new (al : XR) (p : XR * XR) (v : XR) : XR := x_add (x_sub v (x_mul al (snd p))) (x_mul al (fst p)).
Lemma ts_new_swap al p al' p' v : ts_new al' p' (ts_new al p v) = ts_new al p (ts_new al' p' v).
Proof.
  unfold ts_new. rewrite !x_sub_add. generalize (x_mul al (fst p)) (x_neg (x_mul al (snd p))) (x_mul al' (fst p')) (x_neg (x_mul al' (snd p'))). intros a e c f.
  rewrite (x_add_swap (x_add v e) a f), (x_add_swap v e f), (x_add_swap (x_add (x_add v f) e) a c), (x_add_swap (x_add v f) e c). reflexivity.
Qed.
Lemma wr0 {X} (x : X) r z : wr (x :: r) 0 z = Ok (z :: r).
Proof. unfold wr. rewrite zlen_cons. pose proof (zlen_nonneg r). destruct (0 <=? 0) eqn:E1; [|apply Z.leb_gt in E1; lia]. destruct (0 <? zlen r + 1) eqn:E2; [reflexivity|apply Z.ltb_ge in E2; lia]. Qed.
Lemma ts_exec al n m a b c d (s : store XR) hv s' : ~ In d [a; b; c] ->
  exec_task (total_sum_accum_submit al n m a b c d) s hv = Ok s' <->
  exists l y lab x r p, s a = BF l /\ s b = BF y /\ s c = BI lab /\ s d = BF (x :: r) /\ ts_acc n m l y lab = Ok p /\
    s' = upd_store s d (BF (ts_new al p x :: r)).
Proof.
  intros Hd. unfold exec_task, total_sum_accum_submit. cbn [t_acc t_body map]. unfold in_buf. cbn [fst snd reads].
  assert (W : forall l y lab z, s a = BF l -> s b = BF y -> s c = BI lab ->
    upd_store (upd_store (upd_store (upd_store s a (BF l)) b (BF y)) c (BI lab)) d z = upd_store s d z).
  { intros l y lab z E1 E2 E3. apply functional_extensionality. intros h. unfold upd_store.
    destruct (h =? d); [reflexivity|]. destruct (Z.eqb_spec h c); [congruence|]. destruct (Z.eqb_spec h b); [congruence|]. destruct (Z.eqb_spec h a); congruence. }
  unfold total_sum_accum_cpu. split.
  - destruct (s a) as [l|l|l] eqn:E1, (s b) as [y|y|y] eqn:E2, (s c) as [lab|lab|lab] eqn:E3, (s d) as [v|v|v] eqn:E4; cbn [bind]; try discriminate.
    unfold k_total_sum_accum. change (for_ 0 m _ _) with (ts_acc n m l y lab).
    destruct (ts_acc n m l y lab) as [[su co]| |] eqn:Ea; cbn [bind]; try discriminate.
    destruct v as [|x r]; [discriminate|]. change (rd (x :: r) 0) with (@Ok XR x). cbn [bind]. rewrite wr0. cbn [bind].
    intros E. cbn [write_back] in E. inversion E; subst; clear E. exists l, y, lab, x, r, (su, co).
    repeat (split; [first [assumption|reflexivity]|]). rewrite (W l y lab); try assumption; reflexivity.
  - intros (l & y & lab & x & r & [su co] & E1 & E2 & E3 & E4 & E5 & ->). rewrite E1, E2, E3, E4.
    unfold k_total_sum_accum. change (for_ 0 m _ _) with (ts_acc n m l y lab). rewrite E5. cbn [bind]. change (rd (x :: r) 0) with (@Ok XR x). cbn [bind]. rewrite wr0. cbn [bind write_back].
    rewrite (W l y lab) by assumption. reflexivity.
Qed.
Lemma tsum_ok s0 t : tsum t -> ok_task s0 t.
Proof. intros (al & n & m & a & b & c & d & -> & _). apply total_sum_okt. Qed.
Theorem tsum_swap s0 t1 t2 : tsum t1 -> tsum t2 -> nc t1 t2 -> swap s0 t1 t2.
Proof.
  intros T1 T2 Hn. pose proof (tsum_ok s0 t1 T1) as O1. pose proof (tsum_ok s0 t2 T2) as O2.
  destruct T1 as (al & n & m & a & b & c & d & E1 & N1), T2 as (al' & n' & m' & a' & b' & c' & d' & E2 & N2).
  assert (C1 : ~ In d [a'; b'; c']).
  { intros Hin. apply Hn. subst. exists d, MCOMMUTE, MR. cbn [t_acc total_sum_accum_submit]. split; [cbn; tauto|]. split; [|reflexivity]. destruct Hin as [<-|[<-|[<-|[]]]]; cbn; tauto. }
  assert (C2 : ~ In d' [a; b; c]).
  { intros Hin. apply Hn. subst. exists d', MR, MCOMMUTE. cbn [t_acc total_sum_accum_submit]. split; [|split; [cbn; tauto|reflexivity]]. destruct Hin as [<-|[<-|[<-|[]]]]; cbn; tauto. }
  destruct (Z.eq_dec d d') as [<-|Hdd].
  - assert (G : forall al n m a b c al' n' m' a' b' c', ~ In d [a; b; c] -> ~ In d [a'; b'; c'] ->
      half s0 (total_sum_accum_submit al n m a b c d) (total_sum_accum_submit al' n' m' a' b' c' d)).
    { clear. intros al n m a b c al' n' m' a' b' c' N1 N2 s hv1 hv2 s1 Hi T1 T2 E1.
      apply (ts_exec al n m a b c d s hv1 s1 N1) in E1 as (l & y & lab & x & r & p & A1 & A2 & A3 & A4 & A5 & ->).
      assert (Same : forall h z, In h [a'; b'; c'] -> upd_store s d z h = s h) by (intros h z Hh; unfold upd_store; destruct (Z.eqb_spec h d); [subst; contradiction|reflexivity]).
      assert (Same1 : forall h z, In h [a; b; c] -> upd_store s d z h = s h) by (intros h z Hh; unfold upd_store; destruct (Z.eqb_spec h d); [subst; contradiction|reflexivity]).
      assert (Here : forall z, upd_store s d z d = z) by (intros z; unfold upd_store; rewrite Z.eqb_refl; reflexivity).
      assert (UU : forall z w, upd_store (upd_store s d z) d w = upd_store s d w) by (intros z w; apply functional_extensionality; intros h; unfold upd_store; destruct (h =? d); reflexivity).
      split; [split|].
      - intros [s2 E2]. apply (ts_exec al' n' m' a' b' c' d _ hv2 s2 N2) in E2 as (l2 & y2 & lab2 & x2 & r2 & p2 & B1 & B2 & B3 & B4 & B5 & ->).
        rewrite Same in B1, B2, B3 by (cbn; tauto). eexists. apply (ts_exec al' n' m' a' b' c' d s hv2 _ N2). exists l2, y2, lab2, x, r, p2. repeat (split; [assumption|]). reflexivity.
      - intros [s2 E2]. apply (ts_exec al' n' m' a' b' c' d _ hv2 s2 N2) in E2 as (l2 & y2 & lab2 & x2 & r2 & p2 & B1 & B2 & B3 & B4 & B5 & ->).
        eexists. apply (ts_exec al' n' m' a' b' c' d _ hv2 _ N2). exists l2, y2, lab2, (ts_new al p x), r, p2. rewrite !Same, Here by (cbn; tauto). repeat (split; [first [assumption|reflexivity]|]). reflexivity.
      - intros s2 E2. apply (ts_exec al' n' m' a' b' c' d _ hv2 s2 N2) in E2 as (l2 & y2 & lab2 & x2 & r2 & p2 & B1 & B2 & B3 & B4 & B5 & ->).
        rewrite Same in B1, B2, B3 by (cbn; tauto). rewrite Here in B4. inversion B4; subst.
        eexists. split; [apply (ts_exec al' n' m' a' b' c' d s hv2 _ N2); exists l2, y2, lab2, x, r2, p2; repeat (split; [assumption|]); reflexivity|].
        apply (ts_exec al n m a b c d _ hv1 _ N1). exists l, y, lab, (ts_new al' p2 x), r2, p. rewrite !Same1, Here, !UU by (cbn; tauto).
        repeat (split; [first [assumption|reflexivity]|]). rewrite ts_new_swap. reflexivity. }
    subst. split; apply G; assumption.
  - apply indep_swap; try assumption. subst. intros h m1 m2 H1 H2 _ _. cbn [t_acc total_sum_accum_submit In] in H1, H2. cbn [In] in *.
    destruct H1 as [H1|[H1|[H1|[H1|[]]]]], H2 as [H2|[H2|[H2|[H2|[]]]]]; inversion H1; inversion H2; subst; try (split; reflexivity); exfalso; tauto.
Qed.

(** ** Programs whose tasks are ordered or accumulate the loss *)
Definition acc_task (t : task XR) : Prop := ordered_task t \/ tsum t.
Definition runs_acc (r : res (list (task XR))) (s : store XR) (P : store XR -> Prop) : Prop :=
  exists ts, r = Ok ts /\ Forall (ok_task s) ts /\ Forall acc_task ts /\ always ts s (fun s' => tinv s s' /\ P s').
Lemma acc_any r s P : runs_acc r s P -> runs_any r s P.
Proof. intros (ts & E & H1 & _ & H2). exists ts. auto. Qed.
Lemma any_acc r s P : (forall ts, r = Ok ts -> Forall acc_task ts) -> runs_any r s P -> runs_acc r s P.
Proof. intros H (ts & E & H1 & H2). exists ts. auto. Qed.
Lemma nd_acc r s P : runs_nd r s P -> runs_acc r s P.
Proof. intros (ts & E & H1 & H2 & H3). exists ts. split; [assumption|]. split; [assumption|]. split; [|assumption]. eapply Forall_impl; [|exact H2]. left. assumption. Qed.
Lemma acc_weaken r s (P Q : store XR -> Prop) : runs_acc r s P -> (forall s', tinv s s' -> P s' -> Q s') -> runs_acc r s Q.
Proof.
  intros (ts & E & Hs & Ho & Ha) H. exists ts. split; [assumption|]. split; [assumption|]. split; [assumption|].
  eapply always_weaken; [exact Ha|]. intros s' []. auto.
Qed.
Theorem acc_then r1 r2 s P Q : runs_acc r1 s P -> (forall s1, tinv s s1 -> P s1 -> runs_acc r2 s1 Q) -> runs_acc (then_ r1 r2) s Q.
Proof.
  intros (ts1 & E1 & K1 & O1 & A1) H2.
  destruct (always_terminates _ _ _ A1) as (s1 & _ & I1 & P1).
  destruct (H2 s1 I1 P1) as (ts2 & E2 & K2 & O2 & _).
  assert (K2' : Forall (ok_task s) ts2) by (eapply Forall_impl; [|exact K2]; intros t; apply ok_task_tinv; assumption).
  exists (ts1 ++ ts2). split; [unfold then_; rewrite E1, E2; reflexivity|].
  split; [apply Forall_app; split; assumption|]. split; [apply Forall_app; split; assumption|].
  apply (always_app_swap s ts1 ts2 s (fun s' => tinv s s' /\ P s')); try assumption; [|apply tinv_refl|].
  - intros t1 t2 I1' I2' Hn. rewrite Forall_forall in O1, O2, K1, K2'.
    destruct (O1 t1 I1') as [Q1|Q1]; [apply indep_swap; auto; apply nc_indep; auto|].
    destruct (O2 t2 I2') as [Q2|Q2]; [apply indep_swap; auto; apply nc_indep; auto|]. apply tsum_swap; assumption.
  - intros s2 I2 [_ P2]. destruct (H2 s2 I2 P2) as (ts2' & E2' & _ & _ & A2).
    assert (ts2' = ts2) by congruence. subst. eapply always_weaken; [exact A2|].
    intros s' [I' Q']. split; [|assumption]. apply (tinv_comp s s2 s'); assumption.
Qed.
