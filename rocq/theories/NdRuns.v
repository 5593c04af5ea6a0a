(** * Operations whose write-only tasks may use the previous contents of the buffer

    A task that declares its output as write-only but overwrites only a part of it (see
    tensor::copy_intersection) leaves arbitrary data in the rest.  Here an operation is
    only required to respect the declared accesses; its result is then a relation. *)
From Verif Require Import Base Spec Geometry Traits TraitsProofs Runtime Ops TensorSem ElemGeneric OneOut AccRuns Sequence Serial.

Section Nd.
Context {T : Type}.

(** The operation submits tasks that only write what they declare as written, and every
    execution of them is free of errors and ends in a state satisfying P. *)
Definition runs_nd (r : res (list (task T))) (s : store T) (P : store T -> Prop) : Prop :=
  exists ts, r = Ok ts /\ Forall (ok_task s) ts /\ Forall ordered_task ts /\
    always ts s (fun s' => tinv s s' /\ P s').

Lemma runs_runs_nd r s P : runs r s P -> runs_nd r s P.
Proof.
  intros (ts & E & Hs & Ho & Ha). exists ts. split; [assumption|]. split; [|split; assumption].
  eapply Forall_impl; [|exact Hs]. intros t. apply sound_ok.
Qed.

Lemma nd_weaken r s (P Q : store T -> Prop) : runs_nd r s P -> (forall s', tinv s s' -> P s' -> Q s') -> runs_nd r s Q.
Proof.
  intros (ts & E & Hs & Ho & Ha) H. exists ts. split; [assumption|]. split; [assumption|]. split; [assumption|].
  eapply always_weaken; [exact Ha|]. intros s' []. auto.
Qed.

Lemma nd_nop s (P : store T -> Prop) : P s -> runs_nd (Ok []) s P.
Proof. intros H. apply runs_runs_nd, nop_runs. assumption. Qed.

Lemma nd_ends r s (P : store T -> Prop) : runs_nd r s P ->
  exists ts s', r = Ok ts /\ steps (ts, s) ([], s') /\ P s'.
Proof.
  intros (ts & E & _ & _ & Ha). destruct (always_terminates _ _ _ Ha) as (s' & H1 & H2 & H3). eauto.
Qed.

Lemma tinv_swap (s s1 : store T) : tinv s s1 -> tinv s1 s.
Proof. intros H h. symmetry. apply H. Qed.
Lemma tinv_comp (s s1 s2 : store T) : tinv s s1 -> tinv s1 s2 -> tinv s s2.
Proof. intros H1 H2 h. rewrite H2. apply H1. Qed.

Lemma ok_task_tinv (s s1 : store T) t : tinv s s1 -> ok_task s1 t -> ok_task s t.
Proof.
  intros Hi Hk st hv s' Hst Hh E.
  destruct (Hk st hv s' (tinv_comp _ _ _ (tinv_swap _ _ Hi) Hst) Hh E) as [H1 H2].
  split; [|assumption]. apply (tinv_comp s s1 s'); assumption.
Qed.

(** One operation after another, without waiting in between. *)
Theorem nd_then r1 r2 s P Q : runs_nd r1 s P -> (forall s1, tinv s s1 -> P s1 -> runs_nd r2 s1 Q) ->
  runs_nd (then_ r1 r2) s Q.
Proof.
  intros (ts1 & E1 & K1 & O1 & A1) H2.
  destruct (always_terminates _ _ _ A1) as (s1 & _ & I1 & P1).
  destruct (H2 s1 I1 P1) as (ts2 & E2 & K2 & O2 & _).
  assert (K2' : Forall (ok_task s) ts2) by (eapply Forall_impl; [|exact K2]; intros t; apply ok_task_tinv; assumption).
  exists (ts1 ++ ts2). split; [unfold then_; rewrite E1, E2; reflexivity|].
  split; [apply Forall_app; split; assumption|]. split; [apply Forall_app; split; assumption|].
  apply (always_app s ts1 ts2 s (fun s' => tinv s s' /\ P s')); try assumption; [apply tinv_refl|].
  intros s2 I2 [_ P2]. destruct (H2 s2 I2 P2) as (ts2' & E2' & _ & _ & A2).
  assert (ts2' = ts2) by congruence. subst. eapply always_weaken; [exact A2|].
  intros s' [I' Q']. split; [|assumption]. apply (tinv_comp s s2 s'); assumption.
Qed.

Lemma always_single t (s : store T) P :
  (forall hv, typed hv s -> exists s', exec_task t s hv = Ok s' /\ P s') -> always [t] s P.
Proof.
  intros H ts' s' Hst.
  assert (Hsafe : safe ([t], s)).
  { intros l1 x l2 hv E Hn Hty. cbn [fst snd] in *. destruct l1 as [|y l1]; cbn in E; inversion E; subst.
    - destruct (H hv Hty) as (s1 & E1 & _). eauto.
    - destruct l1; discriminate. }
  inversion Hst as [|c1 c2 c3 Hs Hss]; subst.
  - split; [assumption|discriminate].
  - inversion Hs as [l1 x l2 s2 hv s3 Hn Hty Ex Eq]; subst. destruct l1 as [|y l1]; cbn in Eq; inversion Eq; subst.
    2: { destruct l1; discriminate. }
    cbn [app] in Hss. inversion Hss as [|c1 c2 c3 Hs2 Hss2]; subst.
    + split.
      * intros l1 x l2 hv' E. cbn in E. destruct l1; discriminate.
      * intros _. destruct (H hv Hty) as (s1 & E1 & P1). congruence.
    + inversion Hs2. destruct l1; discriminate.
Qed.

Lemma always_nil (s : store T) (P : store T -> Prop) : P s -> always [] s P.
Proof.
  intros H ts' s' Hst. inversion Hst as [|c1 c2 c3 Hs Hss]; subst.
  - split; [|auto]. intros l1 x l2 hv' E. cbn in E. destruct l1; discriminate.
  - inversion Hs. destruct l1; discriminate.
Qed.

(** Running a task with inputs [pre], output [h], inputs [post] and scratch [scr]. *)
Lemma exec_acc pre h m post scr body (s : store T) hv b' :
  m = MW \/ m = MRW -> ~ In h pre -> ~ In h post -> ~ In h scr -> typed hv s ->
  (forall b sc, ty b = ty (s h) -> b = in_buf s hv (h, m) -> map ty sc = map (fun x => ty (s x)) scr -> sc = map hv scr ->
     exists sc', body (map s pre ++ b :: map s post ++ sc) = Ok (map s pre ++ b' :: map s post ++ sc') /\
       List.length sc' = List.length scr) ->
  exists s', exec_task (mkTask (mk_acc pre h m post scr) body) s hv = Ok s' /\
    forall x, s' x = upd_store s h b' x.
Proof.
  intros Hm Hn1 Hn2 Hn3 Hhv Hb. unfold exec_task, mk_acc. cbn [t_acc t_body].
  rewrite map_app, map_map. cbn [map]. rewrite map_app, !map_map.
  change (map (fun x => in_buf s hv (x, MR)) pre) with (map s pre).
  change (map (fun x => in_buf s hv (x, MR)) post) with (map s post).
  change (map (fun x => in_buf s hv (x, MSCRATCH)) scr) with (map hv scr).
  destruct (Hb (in_buf s hv (h, m)) (map hv scr)) as (sc' & E & Hl).
  { unfold in_buf; cbn [fst snd]. destruct (reads m); [reflexivity|apply Hhv]. }
  { reflexivity. }
  { rewrite map_map. apply map_ext. intros x. apply Hhv. }
  { reflexivity. }
  rewrite E. bnd.
  set (acc := map (fun x => (x, MR)) pre ++ (h, m) :: map (fun x => (x, MR)) post ++ map (fun x => (x, MSCRATCH)) scr).
  destruct (write_back_ok acc (map s pre ++ b' :: map s post ++ sc') s (upd_store s h b')) as (s' & E' & H1 & H2).
  - unfold acc. rewrite !app_length. cbn [List.length]. rewrite !app_length, !map_length, Hl. reflexivity.
  - unfold acc. intros k h' m' b Ha Hbk Hm'. unfold upd_store.
    destruct (Nat.lt_ge_cases k (List.length pre)) as [Hk|Hk].
    * rewrite nth_error_app1 in Ha by (rewrite map_length; assumption).
      rewrite nth_error_app1 in Hbk by (rewrite map_length; assumption).
      rewrite nth_error_map' in Ha. rewrite nth_error_map' in Hbk. destruct (nth_error pre k) as [x|] eqn:Ex; [|discriminate].
      cbn in Ha, Hbk. inversion Ha; inversion Hbk; subst.
      destruct (Z.eqb_spec h' h) as [->|]; [exfalso; apply Hn1; eapply nth_error_In; eassumption|reflexivity].
    * rewrite nth_error_app2 in Ha by (rewrite map_length; assumption).
      rewrite nth_error_app2 in Hbk by (rewrite map_length; assumption).
      rewrite map_length in *. destruct (k - List.length pre)%nat as [|k']; cbn in Ha, Hbk.
      -- inversion Ha; inversion Hbk; subst. rewrite Z.eqb_refl. reflexivity.
      -- destruct (Nat.lt_ge_cases k' (List.length post)) as [Hk'|Hk'].
         ++ rewrite nth_error_app1 in Ha by (rewrite map_length; assumption).
            rewrite nth_error_app1 in Hbk by (rewrite map_length; assumption).
            rewrite nth_error_map' in Ha. rewrite nth_error_map' in Hbk. destruct (nth_error post k') as [x|] eqn:Ex; [|discriminate].
            cbn in Ha, Hbk. inversion Ha; inversion Hbk; subst.
            destruct (Z.eqb_spec h' h) as [->|]; [exfalso; apply Hn2; eapply nth_error_In; eassumption|reflexivity].
         ++ rewrite nth_error_app2 in Ha by (rewrite map_length; assumption).
            rewrite nth_error_map' in Ha. destruct (nth_error scr _) as [x|] eqn:Ex; [|discriminate].
            cbn in Ha. inversion Ha; subst. contradiction.
  - exists s'. split; [exact E'|]. intros x.
    destruct (acc_dec acc x) as [(m' & Hin & Hns)|Hns].
    + apply (H1 x m' Hin Hns).
    + rewrite (H2 x Hns). unfold upd_store. destruct (Z.eqb_spec x h) as [->|]; [|reflexivity].
      exfalso. assert (Hin : In (h, m) acc) by (unfold acc; apply in_or_app; right; left; reflexivity).
      pose proof (Hns m Hin). destruct Hm; congruence.
Qed.

Context {DT : Dflt T}.

Section Elem.
Context {X : Type}.
Variables (md : X -> mode) (G : X -> Z -> T -> T).

(** The value of one element after the updates [l]: an update that only writes may see
    anything as the previous value. *)
Fixpoint nd_fold (l : list X) (o : Z) (v w : T) : Prop :=
  match l with
  | [] => w = v
  | x :: l => exists v', (md x = MRW -> v' = v) /\ nd_fold l o (G x o v') w
  end.

Lemma nd_fold_id l o v w : (forall x, In x l -> md x = MRW) -> (forall x v, In x l -> G x o v = v) -> nd_fold l o v w -> w = v.
Proof.
  revert v. induction l as [|x l IH]; intros v Hm Hg H; cbn [nd_fold] in H; [assumption|].
  destruct H as (v' & Ev & H). rewrite Ev in H by (apply Hm; left; reflexivity).
  rewrite Hg in H by (left; reflexivity). apply IH; [intros; apply Hm; right; assumption|intros; apply Hg; right; assumption|assumption].
Qed.

(** One of the updates determines the value, the later ones keep it. *)
Lemma nd_fold_hit l1 x0 l2 o v w u : (forall v, G x0 o v = u) ->
  (forall x, In x l2 -> md x = MRW) -> (forall x v, In x l2 -> G x o v = v) -> nd_fold (l1 ++ x0 :: l2) o v w -> w = u.
Proof.
  revert v. induction l1 as [|x l1 IH]; intros v Hu Hm Hg H; cbn [nd_fold app] in H.
  - destruct H as (v' & _ & H). rewrite Hu in H. eapply nd_fold_id; eauto.
  - destruct H as (v' & _ & H). eapply IH; eauto.
Qed.
End Elem.

(** Tasks [xs], each updating tile [out x] of [D] element by element. *)
Theorem nd_elem {X} (D : tensor) (xs : list X) (out : X -> Z) (md : X -> mode)
    (pre post scr : X -> list handle) (body : X -> list (buf T) -> res (list (buf T)))
    (G : X -> list (buf T) -> list (buf T) -> Z -> T -> T) s r :
  wft D -> stored KF s D ->
  r = Ok (map (fun x => mkTask (mk_acc (pre x) (th D (out x)) (md x) (post x) (scr x)) (body x)) xs) ->
  (forall x, In x xs -> 0 <= out x < ntiles D) ->
  (forall x, In x xs -> md x = MW \/ md x = MRW) ->
  (forall x h, In x xs -> In h (pre x) \/ In h (post x) \/ In h (scr x) -> ~ In h (tile_handles D)) ->
  (forall x st d sc, In x xs -> tinv s st -> zlen d = tsz D (out x) ->
     map ty sc = map (fun h => ty (s h)) (scr x) ->
     exists sc', body x (map st (pre x) ++ BF d :: map st (post x) ++ sc) =
       Ok (map st (pre x) ++ BF (ztab (tsz D (out x)) (fun o => G x (map st (pre x)) (map st (post x)) o (zn d o)))
             :: map st (post x) ++ sc') /\
       List.length sc' = List.length (scr x)) ->
  runs_nd r s (fun s' =>
    (forall idx, inb (t_shape D) idx ->
       nd_fold md (fun x o v => G x (map s (pre x)) (map s (post x)) o v)
         (filter (fun x => out x =? etile D idx) xs) (eoff D idx) (elem s D idx) (elem s' D idx)) /\
    frame [D] s s').
Proof.
  intros HD Hst -> Ho Hm Hsep Hb.
  assert (Hx : forall x st hv, In x xs -> tinv s st -> typed hv st ->
    exists s' d, exec_task (mkTask (mk_acc (pre x) (th D (out x)) (md x) (post x) (scr x)) (body x)) st hv = Ok s' /\
      in_buf st hv (th D (out x), md x) = BF d /\ zlen d = tsz D (out x) /\
      forall h, s' h = upd_store st (th D (out x)) (BF (ztab (tsz D (out x)) (fun o => G x (map st (pre x)) (map st (post x)) o (zn d o)))) h).
  { intros x st hv Hx Hti Hhv.
    assert (Et : ty (in_buf st hv (th D (out x), md x)) = (KF, tsz D (out x))).
    { rewrite <- (Hst (out x) (Ho x Hx)). rewrite <- Hti. unfold in_buf. cbn [fst snd]. destruct (reads (md x)); [reflexivity|apply Hhv]. }
    destruct (ty_BF _ _ Et) as (d & Ed & Hd).
    assert (Sp : forall h, In h (pre x) \/ In h (post x) \/ In h (scr x) -> h <> th D (out x)).
    { intros h Hh ->. apply (Hsep x (th D (out x)) Hx Hh). apply th_In; auto. }
    destruct (exec_acc (pre x) (th D (out x)) (md x) (post x) (scr x) (body x) st hv
      (BF (ztab (tsz D (out x)) (fun o => G x (map st (pre x)) (map st (post x)) o (zn d o))))) as (s' & E & Hs').
    - apply Hm. assumption.
    - intros Hi. apply (Sp (th D (out x))); auto.
    - intros Hi. apply (Sp (th D (out x))); auto.
    - intros Hi. apply (Sp (th D (out x))); auto.
    - assumption.
    - intros b sc _ -> Hsc _. rewrite Ed. apply Hb; auto. rewrite Hsc. apply map_ext. intros h. apply Hti.
    - exists s', d. auto. }
  assert (Kx : forall x, In x xs -> ok_task s (mkTask (mk_acc (pre x) (th D (out x)) (md x) (post x) (scr x)) (body x))).
  { intros x Hin st hv s' Hti Hhv E. destruct (Hx x st hv Hin Hti Hhv) as (s1 & d & E1 & _ & Hd & Hs1).
    assert (s1 = s') by congruence. subst s1. split.
    - intros h. rewrite Hs1. unfold upd_store. destruct (Z.eqb_spec h (th D (out x))) as [->|]; [|apply Hti].
      cbn [ty]. rewrite zlen_ztab by (pose proof (tsz_pos D (out x) HD (Ho x Hin)); lia). symmetry. apply Hst. auto.
    - intros h Hh. rewrite Hs1. unfold upd_store. destruct (Z.eqb_spec h (th D (out x))) as [->|]; [|reflexivity].
      exfalso. assert (Hi : In (th D (out x), md x) (mk_acc (pre x) (th D (out x)) (md x) (post x) (scr x))).
      { unfold mk_acc. apply in_or_app. right. left. reflexivity. }
      pose proof (Hh _ Hi) as Hw. destruct (Hm x Hin) as [E2|E2]; rewrite E2 in Hw; discriminate. }
  assert (Ox : forall x, In x xs -> ordered_task (mkTask (T := T) (mk_acc (pre x) (th D (out x)) (md x) (post x) (scr x)) (body x))).
  { intros x Hin h m Hi. cbn [t_acc] in Hi. unfold mk_acc in Hi. apply in_app_or in Hi as [Hi|[E|Hi]].
    - apply in_map_iff in Hi as (y & E & _). inversion E; subst. split; discriminate.
    - inversion E; subst. destruct (Hm x Hin) as [->| ->]; split; discriminate.
    - apply in_app_or in Hi as [Hi|Hi]; apply in_map_iff in Hi as (y & E & _); inversion E; subst; split; discriminate. }
  eexists. split; [reflexivity|].
  assert (KF : forall ys, incl ys xs -> Forall (ok_task s) (map (fun x => mkTask (mk_acc (pre x) (th D (out x)) (md x) (post x) (scr x)) (body x)) ys)).
  { intros ys Hi. rewrite Forall_map, Forall_forall. intros x Hy. apply Kx, Hi, Hy. }
  assert (OF : forall ys, incl ys xs -> Forall ordered_task (map (fun x => mkTask (T := T) (mk_acc (pre x) (th D (out x)) (md x) (post x) (scr x)) (body x)) ys)).
  { intros ys Hi. rewrite Forall_map, Forall_forall. intros x Hy. apply Ox, Hi, Hy. }
  split; [apply KF, incl_refl|]. split; [apply OF, incl_refl|].
  assert (Gen : forall ys st, incl ys xs -> tinv s st -> frame [D] s st ->
    always (map (fun x => mkTask (mk_acc (pre x) (th D (out x)) (md x) (post x) (scr x)) (body x)) ys) st
      (fun s' => tinv s s' /\ ((forall idx, inb (t_shape D) idx ->
       nd_fold md (fun x o v => G x (map s (pre x)) (map s (post x)) o v)
         (filter (fun x => out x =? etile D idx) ys) (eoff D idx) (elem st D idx) (elem s' D idx)) /\ frame [D] s s'))).
  { induction ys as [|x ys IH]; intros st Hincl Hti Hfr.
    - apply always_nil. split; [assumption|]. split; [|assumption]. intros idx Hi. reflexivity.
    - assert (Hin : In x xs) by (apply Hincl; left; reflexivity).
      assert (Hincl' : incl ys xs) by (intros y Hy; apply Hincl; right; assumption).
      cbn [map].
      set (t := mkTask (mk_acc (pre x) (th D (out x)) (md x) (post x) (scr x)) (body x)).
      change (t :: ?l) with ([t] ++ l).
      apply (always_app s [t] _ st (fun s1 => frame [D] s s1 /\ forall idx, inb (t_shape D) idx ->
         if out x =? etile D idx then exists v', (md x = MRW -> v' = elem st D idx) /\
              elem s1 D idx = G x (map s (pre x)) (map s (post x)) (eoff D idx) v'
         else elem s1 D idx = elem st D idx)).
      + constructor; [apply Ox; assumption|constructor].
      + apply OF. assumption.
      + constructor; [apply Kx; assumption|constructor].
      + apply KF. assumption.
      + assumption.
      + apply always_single. intros hv Hhv. destruct (Hx x st hv Hin Hti Hhv) as (s1 & d & E1 & Ed & Hd & Hs1).
        exists s1. split; [assumption|].
        assert (Hpre : forall l, (forall h, In h l -> In h (pre x) \/ In h (post x)) -> map st l = map s l).
        { intros l Hl. apply map_ext_in. intros h Hh. apply Hfr. intros t' [<-|[]]. apply (Hsep x h Hin). destruct (Hl h Hh); auto. }
        split.
        * intros h Hh. rewrite Hs1. unfold upd_store. destruct (Z.eqb_spec h (th D (out x))) as [->|].
          { exfalso. apply (Hh D); [left; reflexivity|]. apply th_In; auto. }
          apply Hfr. assumption.
        * intros idx Hi. pose proof (etile_bound D idx HD Hi) as Hb1. pose proof (eoff_bound D idx HD Hi) as Hb2.
          unfold elem. rewrite Hs1. unfold upd_store.
          destruct (Z.eqb_spec (out x) (etile D idx)) as [Eo|Eo].
          -- rewrite Eo in *. rewrite Z.eqb_refl. cbn [fl]. rewrite zn_ztab by assumption.
             rewrite (Hpre (pre x)), (Hpre (post x)) by auto.
             exists (zn d (eoff D idx)). split; [|reflexivity]. intros Emd. unfold in_buf in Ed. cbn [fst snd] in Ed.
             rewrite Emd in Ed. cbn [reads] in Ed. rewrite Ed. reflexivity.
          -- destruct (Z.eqb_spec (th D (etile D idx)) (th D (out x))) as [E|]; [|reflexivity].
             exfalso. apply Eo. symmetry. apply (th_inj D); auto.
      + intros s1 Hti1 [Hfr1 H1]. eapply always_weaken; [apply (IH s1 Hincl' Hti1 Hfr1)|].
        intros s' (I' & H' & F'). split; [assumption|]. split; [|assumption].
        intros idx Hi. specialize (H1 idx Hi). specialize (H' idx Hi). cbn [filter].
        destruct (out x =? etile D idx).
        * destruct H1 as (v' & Ev & E1). cbn [nd_fold]. exists v'. split; [assumption|]. rewrite <- E1. assumption.
        * rewrite <- H1. assumption. }
  apply (Gen xs s (incl_refl _) (tinv_refl s)). intros h _. reflexivity.
Qed.
End Nd.
