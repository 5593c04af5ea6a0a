(** * Tasks that update several handles *)
From Verif Require Import Base Spec Geometry Traits TraitsProofs Runtime Ops TensorSem ElemGeneric OneOut AccRuns.

Section M.
Context {T : Type}.

Lemma elookup_map (g : handle -> store T -> buf T) hs h :
  elookup (map (fun x => (x, g x)) hs) h = if existsb (Z.eqb h) hs then Some (g h) else None.
Proof.
  induction hs as [|x hs IH]; [reflexivity|]. cbn [map elookup existsb].
  destruct (Z.eqb_spec h x) as [->|]; [reflexivity|]. exact IH.
Qed.
Lemma existsb_In h hs : existsb (Z.eqb h) hs = true <-> In h hs.
Proof.
  rewrite existsb_exists. split.
  - intros (x & Hx & E). apply Z.eqb_eq in E. congruence.
  - intros H. exists h. rewrite Z.eqb_refl. auto.
Qed.
Lemma existsb_nIn h hs : ~ In h hs -> existsb (Z.eqb h) hs = false.
Proof. intros H. destruct (existsb (Z.eqb h) hs) eqn:E; [|reflexivity]. apply existsb_In in E. contradiction. Qed.

(** inputs, updated handles (all with the same mode), scratch *)
Definition mk_multi (pre outs : list handle) (m : mode) (scr : list handle) : list (handle * mode) :=
  map (fun x => (x, MR)) pre ++ map (fun x => (x, m)) outs ++ map (fun x => (x, MSCRATCH)) scr.

(** Task [x] replaces the content b of each h in [outs x] by [F x h p b], p being the contents of the inputs. *)
Theorem multi_runs {X} (xs : list X) (pre outs scr : X -> list handle) (md : X -> mode)
    (body : X -> list (buf T) -> res (list (buf T)))
    (F : X -> handle -> list (buf T) -> buf T -> buf T) s r :
  r = Ok (map (fun x => mkTask (mk_multi (pre x) (outs x) (md x) (scr x)) (body x)) xs) ->
  (forall x, In x xs -> md x = MW \/ md x = MRW) ->
  (forall x y h, In x xs -> In y xs -> In h (pre x) -> ~ In h (outs y)) ->
  (forall x h p b b', In x xs -> md x = MW -> ty b = ty b' -> F x h p b = F x h p b') ->
  (forall x h st b, In x xs -> In h (outs x) -> tinv s st -> ty b = ty (s h) -> ty (F x h (map st (pre x)) b) = ty (s h)) ->
  (forall x st v sc, In x xs -> tinv s st -> tinv s v ->
     map ty sc = map (fun h => ty (s h)) (scr x) ->
     exists sc', body x (map st (pre x) ++ map v (outs x) ++ sc) =
       Ok (map st (pre x) ++ map (fun h => F x h (map st (pre x)) (v h)) (outs x) ++ sc') /\
       List.length sc' = List.length (scr x)) ->
  runs r s (fun s' => forall h, s' h =
     fold_left (fun b x => if existsb (Z.eqb h) (outs x) then F x h (map s (pre x)) b else b) xs (s h)).
Proof.
  intros -> Hm Hsep Hw Hty Hb.
  set (g := fun x h (st : store T) => F x h (map st (pre x)) (match md x with MRW => st h | _ => s h end)).
  set (tk := fun x => mkTask (mk_multi (pre x) (outs x) (md x) (scr x)) (body x)).
  set (e := fun x => map (fun h => (h, g x h)) (outs x) : eff T).
  assert (Hg : forall x h f, elookup (e x) h = Some f -> In h (outs x) /\ f = g x h).
  { intros x h f. unfold e. rewrite elookup_map. destruct (existsb (Z.eqb h) (outs x)) eqn:E; [|discriminate].
    intros [= <-]. apply existsb_In in E. auto. }
  assert (Hio : forall x h, In h (outs x) -> In (h, md x) (mk_multi (pre x) (outs x) (md x) (scr x))).
  { intros x h H. unfold mk_multi. apply in_or_app; right. apply in_or_app; left. apply in_map_iff. eauto. }
  assert (Hip : forall x h, In h (pre x) -> In (h, MR) (mk_multi (pre x) (outs x) (md x) (scr x))).
  { intros x h H. unfold mk_multi. apply in_or_app; left. apply in_map_iff. eauto. }
  assert (Hte : forall x, In x xs -> task_eff (tinv s) (tk x) (e x)).
  { intros x Hx. apply mk_task_eff; cbn [tk t_acc t_body].
    - intros st hv Hst Hhv. unfold mk_multi. rewrite !map_app, !map_map.
      change (map (fun x0 => in_buf st hv (x0, MR)) (pre x)) with (map st (pre x)).
      change (map (fun x0 => in_buf st hv (x0, MSCRATCH)) (scr x)) with (map hv (scr x)).
      set (v := fun h => in_buf st hv (h, md x)).
      assert (Hv : tinv s v).
      { intros h. unfold v, in_buf. cbn [fst snd]. destruct (reads (md x)); [apply Hst|]. rewrite Hhv. apply Hst. }
      destruct (Hb x st v (map hv (scr x)) Hx Hst Hv) as (sc' & E & Hl).
      { rewrite map_map. apply map_ext. intros h. rewrite Hhv. apply Hst. }
      eexists. split; [exact E|]. split; [rewrite !app_length, !map_length, Hl; reflexivity|].
      intros k h m b Ha Hbk Hmm.
      destruct (Nat.lt_ge_cases k (List.length (pre x))) as [Hk|Hk].
      + rewrite nth_error_app1 in Ha by (rewrite map_length; assumption).
        rewrite nth_error_app1 in Hbk by (rewrite map_length; assumption).
        rewrite nth_error_map' in Ha. rewrite nth_error_map' in Hbk. destruct (nth_error (pre x) k) as [y|] eqn:E'; [|discriminate].
        cbn in Ha, Hbk. inversion Ha; inversion Hbk; subst. unfold app_eff, e. rewrite elookup_map, existsb_nIn; [reflexivity|].
        apply (Hsep x x); auto. eapply nth_error_In; eassumption.
      + rewrite nth_error_app2 in Ha by (rewrite map_length; assumption).
        rewrite nth_error_app2 in Hbk by (rewrite map_length; assumption). rewrite map_length in *.
        set (k' := (k - List.length (pre x))%nat) in *.
        destruct (Nat.lt_ge_cases k' (List.length (outs x))) as [Hk'|Hk'].
        * rewrite nth_error_app1 in Ha by (rewrite map_length; assumption).
          rewrite nth_error_app1 in Hbk by (rewrite map_length; assumption).
          rewrite nth_error_map' in Ha. rewrite nth_error_map' in Hbk. destruct (nth_error (outs x) k') as [y|] eqn:E'; [|discriminate].
          cbn in Ha, Hbk. inversion Ha; inversion Hbk; subst. apply nth_error_In in E'.
          unfold app_eff, e. rewrite elookup_map. rewrite (proj2 (existsb_In _ _) E'). unfold g.
          destruct (Hm x Hx) as [Em|Em].
          -- rewrite Em in *. apply Hw; [assumption|assumption|]. apply Hv.
          -- unfold v. rewrite Em in *. reflexivity.
        * rewrite nth_error_app2 in Ha by (rewrite map_length; assumption).
          rewrite nth_error_map' in Ha. destruct (nth_error (scr x) _) as [y|] eqn:E'; [|discriminate].
          cbn in Ha. inversion Ha; subst. contradiction.
    - intros h f E. apply Hg in E as [E _]. exists (md x). split; [apply Hio, E|]. destruct (Hm x Hx) as [->| ->]; reflexivity.
    - intros h f s1 s2 E Hag. apply Hg in E as [E ->]. unfold g.
      rewrite (map_ext_in s1 s2 (pre x)); [|intros y Hy; apply (Hag y MR); [apply Hip, Hy|reflexivity]].
      f_equal. destruct (Hm x Hx) as [Em|Em]; rewrite Em; [reflexivity|].
      apply (Hag h MRW); [|reflexivity]. rewrite <- Em. apply Hio, E.
    - intros h m Hin Hwm. unfold e. rewrite elookup_map. unfold mk_multi in Hin.
      apply in_app_or in Hin as [Hin|Hin].
      { apply in_map_iff in Hin as (y & E & _). inversion E; subst. discriminate. }
      apply in_app_or in Hin as [Hin|Hin].
      { apply in_map_iff in Hin as (y & E & Hy). inversion E; subst. rewrite (proj2 (existsb_In _ _) Hy). discriminate. }
      { apply in_map_iff in Hin as (y & E & _). inversion E; subst. discriminate. }
    - apply tinv_app. intros h f st E Hst. apply Hg in E as [E ->]. unfold g. apply Hty; auto.
      destruct (md x); try reflexivity; apply Hst. }
  assert (Hord : forall x h m, In x xs -> In (h, m) (t_acc (tk x)) -> m <> MCOMMUTE /\ m <> MREDUX).
  { intros x h m Hx Hin. cbn [tk t_acc] in Hin. unfold mk_multi in Hin. apply in_app_or in Hin as [Hin|Hin].
    { apply in_map_iff in Hin as (y & E & _). inversion E; subst. split; discriminate. }
    apply in_app_or in Hin as [Hin|Hin].
    { apply in_map_iff in Hin as (y & E & Hy). inversion E; subst. destruct (Hm x Hx) as [->| ->]; split; discriminate. }
    { apply in_map_iff in Hin as (y & E & _). inversion E; subst. split; discriminate. } }
  exists (map tk xs). split; [reflexivity|]. split; [|split].
  - apply Forall_forall. intros t Ht. apply in_map_iff in Ht as (x & <- & Hx). eapply task_eff_sound; [apply tinv_ext|]. apply Hte, Hx.
  - apply Forall_forall. intros t Ht h m. apply in_map_iff in Ht as (x & <- & Hx). apply Hord, Hx.
  - pose proof (schedule_independence (tinv s) (map (fun x => (tk x, e x)) xs) s (tinv_ext s)) as Ha.
    rewrite !map_map in Ha. cbn [fst snd] in Ha.
    eapply always_weaken; [apply Ha; [|apply tinv_refl]|].
    + apply detlist_no_comm.
      * intros p Hp. apply in_map_iff in Hp as (x & <- & Hx). apply Hte, Hx.
      * intros p h m Hp Hin. apply in_map_iff in Hp as (x & <- & Hx). eapply Hord; eassumption.
    + intros s' Hs'. cbv beta in Hs'. split.
      * intros h. rewrite Hs'. revert h. change (tinv s (seq_eff (map (fun x => e x) xs) s)).
        apply (seq_eff_inv (tinv s) (map tk xs)); [|apply tinv_refl].
        clear - Hte. induction xs as [|x l IH]; simpl; constructor.
        -- apply Hte; left; reflexivity.
        -- apply IH. intros; apply Hte; right; assumption.
      * intros h. rewrite Hs'.
        rewrite (seq_fold _ s h (fun h' => h' <> h /\ forall x, In x xs -> ~ In h' (outs x))).
        -- unfold fold_at. rewrite fold_left_map'.
           assert (Gen : forall ys b, incl ys xs -> ty b = ty (s h) ->
             fold_left (fun b x => match elookup (e x) h with Some f => f (upd_store s h b) | None => b end) ys b =
             fold_left (fun b x => if existsb (Z.eqb h) (outs x) then F x h (map s (pre x)) b else b) ys b).
           { induction ys as [|x ys IH]; intros b Hi Hb'; [reflexivity|]. cbn [fold_left].
             assert (Hx : In x xs) by (apply Hi; left; reflexivity).
             assert (Hi' : incl ys xs) by (intros y Hy; apply Hi; right; assumption).
             unfold e at 2. rewrite elookup_map. destruct (existsb (Z.eqb h) (outs x)) eqn:Ex.
             - apply existsb_In in Ex. assert (EG : g x h (upd_store s h b) = F x h (map s (pre x)) b).
               { unfold g. rewrite (map_ext_in (upd_store s h b) s (pre x)).
                 - destruct (Hm x Hx) as [Em|Em]; rewrite Em.
                   + apply Hw; auto.
                   + unfold upd_store. rewrite Z.eqb_refl. reflexivity.
                 - intros y Hy. unfold upd_store. destruct (Z.eqb_spec y h) as [->|]; [|reflexivity].
                   exfalso. exact (Hsep x x h Hx Hx Hy Ex). }
               rewrite EG. apply IH; [assumption|]. apply Hty; auto. apply tinv_refl.
             - apply IH; assumption. }
           apply Gen; [apply incl_refl|reflexivity].
        -- intros e0 h' He (_ & Hn). apply in_map_iff in He as (x & <- & Hx). unfold e. rewrite elookup_map, existsb_nIn; auto.
        -- intros e0 f s1 s2 He E Hag. apply in_map_iff in He as (x & <- & Hx). apply Hg in E as [E ->]. unfold g.
           rewrite (map_ext_in s1 s2 (pre x)).
           ++ f_equal. destruct (md x); try reflexivity. apply Hag. left; reflexivity.
           ++ intros y Hy. apply Hag. right. split; [intros ->; exact (Hsep x x h Hx Hx Hy E)|]. intros z Hz. apply (Hsep x z); assumption.
Qed.

Context {DT : Dflt T}.
(** Elements of a tensor D among the outputs. *)
Lemma multi_elem {X} (xs : list X) (outs : X -> list handle) (Fh : X -> handle -> buf T -> buf T)
    (G : X -> Z -> T -> T) (D : tensor) (s s' : store T) idx : wft D -> stored KF s D -> inb (t_shape D) idx ->
  (forall h, s' h = fold_left (fun b x => if existsb (Z.eqb h) (outs x) then Fh x h b else b) xs (s h)) ->
  (forall x d, In x xs -> In (th D (etile D idx)) (outs x) -> zlen d = tsz D (etile D idx) ->
     Fh x (th D (etile D idx)) (BF d) = BF (ztab (tsz D (etile D idx)) (fun o => G x o (zn d o)))) ->
  elem s' D idx = fold_left (fun v x => G x (eoff D idx) v) (filter (fun x => existsb (Z.eqb (th D (etile D idx))) (outs x)) xs) (elem s D idx).
Proof.
  intros HD Hst Hi Hs' HF. pose proof (etile_bound D idx HD Hi) as Hi'. pose proof (eoff_bound D idx HD Hi) as Ho'.
  unfold elem. rewrite Hs'. destruct (ty_BF _ _ (Hst _ Hi')) as (l & El & Hl). rewrite El. cbn [fl].
  set (h := th D (etile D idx)) in *.
  assert (Gn : forall ys d, incl ys xs -> zlen d = tsz D (etile D idx) ->
    zn (fl (fold_left (fun b x => if existsb (Z.eqb h) (outs x) then Fh x h b else b) ys (BF d))) (eoff D idx) =
    fold_left (fun v x => G x (eoff D idx) v) (filter (fun x => existsb (Z.eqb h) (outs x)) ys) (zn d (eoff D idx))).
  { induction ys as [|x ys IH]; intros d Hy Hd; [reflexivity|]. cbn [fold_left filter].
    assert (Hy' : incl ys xs) by (intros z Hz; apply Hy; right; assumption).
    destruct (existsb (Z.eqb h) (outs x)) eqn:E.
    - apply existsb_In in E. rewrite HF; auto; [|apply Hy; left; reflexivity]. cbn [fold_left].
      rewrite IH; [|assumption|rewrite zlen_ztab; lia]. rewrite zn_ztab by lia. reflexivity.
    - apply IH; assumption. }
  apply Gn; [apply incl_refl|assumption].
Qed.
End M.
