(** * Operations whose tasks write one handle each

    Generic results: what the store holds after all tasks of a tiled operation have run, in
    any schedule, when every task writes one handle and only reads handles that no task of the
    operation writes. *)
From Verif Require Import Base Spec Geometry Traits TraitsProofs Runtime Ops TensorSem ElemGeneric.

Lemma fold_left_map' {A B C} (f : A -> B -> A) (g : C -> B) l a :
  fold_left f (map g l) a = fold_left (fun a c => f a (g c)) l a.
Proof. revert a; induction l; intros; simpl; auto. Qed.

Lemma fold_left_ext' {A B} (f g : A -> B -> A) l a : (forall a b, f a b = g a b) -> fold_left f l a = fold_left g l a.
Proof. intros H; revert a; induction l; intros; simpl; auto. rewrite H. auto. Qed.

Section OneOut.
Context {T : Type}.

(** Submitting [r] succeeds, all submitted tasks use their access modes soundly (without
    commutative or reduction access), and every schedule of them is free of errors and ends in a state satisfying [P] (with
    all buffers keeping their sizes and element types). *)
Definition runs (r : res (list (task T))) (s : store T) (P : store T -> Prop) : Prop :=
  exists ts, r = Ok ts /\ Forall (sound_task (tinv s)) ts /\ Forall ordered_task ts /\
    always ts s (fun s' => tinv s s' /\ P s').

Definition throws {A} (r : res A) : Prop := exists msg, r = Throw msg.

Lemma runs_weaken r s (P Q : store T -> Prop) : runs r s P -> (forall s', tinv s s' -> P s' -> Q s') -> runs r s Q.
Proof.
  intros (ts & E & Hs & Ho & Ha) H. exists ts. split; [assumption|]. split; [assumption|]. split; [assumption|].
  eapply always_weaken; [exact Ha|]. intros s' []. auto.
Qed.

(** Every execution of the operation ends somewhere: the statement is not vacuous. *)
Lemma runs_ends r s (P : store T -> Prop) : runs r s P ->
  exists ts s', r = Ok ts /\ steps (ts, s) ([], s') /\ P s'.
Proof.
  intros (ts & E & _ & _ & Ha). destruct (always_terminates _ _ _ Ha) as (s' & H1 & H2 & H3). eauto.
Qed.

(** Submitting nothing. *)
Lemma nop_runs s (P : store T -> Prop) : P s -> runs (Ok []) s P.
Proof.
  intros HP. exists []. split; [reflexivity|]. split; [constructor|]. split; [constructor|]. intros ts' s' Hst'.
  inversion Hst' as [|c1 c2 c3 Hs]; subst.
  - split; [intros l1 t l2 hv E; destruct l1; discriminate|]. intros _. split; [apply tinv_refl|exact HP].
  - inversion Hs as [l1 ? ? ? ? ? ? ? ? E]; subst. destruct l1; discriminate.
Qed.

Record wtask := mkW {
  w_acc : list (handle * mode);
  w_body : list (buf T) -> res (list (buf T));
  w_h : handle;
  w_F : store T -> buf T
}.
Definition w_task (w : wtask) : task T := mkTask (w_acc w) (w_body w).
Definition w_eff (w : wtask) : eff T := [(w_h w, w_F w)].

(** The out handle is accessed once, with mode W or RW; all others are read-only or scratch. *)
Record w_ok (s0 : store T) (w : wtask) : Prop := {
  wo_in : exists m, In (w_h w, m) (w_acc w) /\ (m = MW \/ m = MRW);
  wo_out : forall h m, In (h, m) (w_acc w) -> h = w_h w -> m = MW \/ m = MRW;
  wo_oth : forall h m, In (h, m) (w_acc w) -> h <> w_h w -> m = MR \/ m = MSCRATCH;
  wo_dep : forall s1 s2, (forall h m, In (h, m) (w_acc w) -> reads m = true -> s1 h = s2 h) ->
    w_F w s1 = w_F w s2;
  wo_ty : forall s, tinv s0 s -> ty (w_F w s) = ty (s0 (w_h w));
  wo_run : forall s hv, tinv s0 s -> typed hv s -> exists out,
    w_body w (map (in_buf s hv) (w_acc w)) = Ok out /\ List.length out = List.length (w_acc w) /\
    forall k h m b, nth_error (w_acc w) k = Some (h, m) -> nth_error out k = Some b -> m <> MSCRATCH ->
      b = if h =? w_h w then w_F w s else s h
}.

Lemma w_eff_lookup w h : elookup (w_eff w) h = if h =? w_h w then Some (w_F w) else None.
Proof. reflexivity. Qed.

Lemma w_task_eff s0 w : w_ok s0 w -> task_eff (tinv s0) (w_task w) (w_eff w).
Proof.
  intros H. apply mk_task_eff.
  - intros s hv Hs Hhv. destruct (wo_run _ _ H s hv Hs Hhv) as (out & E & Hl & Ho).
    exists out. split; [exact E|]. split; [exact Hl|]. intros k h m b Ha Hb Hm.
    rewrite (Ho k h m b Ha Hb Hm). unfold app_eff. rewrite w_eff_lookup.
    destruct (h =? w_h w); reflexivity.
  - intros h f. rewrite w_eff_lookup. destruct (Z.eqb_spec h (w_h w)) as [->|]; [|discriminate].
    intros _. destruct (wo_in _ _ H) as (m & Hm & [->| ->]); eauto.
  - intros h f s1 s2. rewrite w_eff_lookup. destruct (Z.eqb_spec h (w_h w)) as [->|]; [|discriminate].
    intros [= <-] Hag. apply (wo_dep _ _ H). exact Hag.
  - intros h m Hin Hw. rewrite w_eff_lookup. destruct (Z.eqb_spec h (w_h w)) as [->|Hne]; [discriminate|].
    destruct (wo_oth _ _ H h m Hin Hne) as [->| ->]; discriminate.
  - apply tinv_app. intros h f s. rewrite w_eff_lookup. destruct (Z.eqb_spec h (w_h w)) as [->|]; [|discriminate].
    intros [= <-]. apply (wo_ty _ _ H).
Qed.

(** Value of handle [h] after running [ws] in order. *)
Definition w_fold (ws : list wtask) (s0 : store T) (h : handle) (b : buf T) : buf T :=
  fold_left (fun b w => if h =? w_h w then w_F w (upd_store s0 h b) else b) ws b.

Theorem one_always s0 ws :
  (forall w, In w ws -> w_ok s0 w) ->
  (forall w w' m, In w ws -> In w' ws -> In (w_h w', m) (w_acc w) -> m <> MSCRATCH -> w_h w' = w_h w) ->
  always (map w_task ws) s0 (fun s' => tinv s0 s' /\ forall h, s' h = w_fold ws s0 h (s0 h)).
Proof.
  intros Hok Hro.
  pose proof (schedule_independence (tinv s0) (map (fun w => (w_task w, w_eff w)) ws) s0 (tinv_ext s0)) as Ha.
  rewrite !map_map in Ha. cbn [fst snd] in Ha.
  eapply always_weaken; [apply Ha; [|apply tinv_refl]|].
  - apply detlist_no_comm.
    + intros p Hp. apply in_map_iff in Hp as (w & <- & Hw). apply w_task_eff, Hok, Hw.
    + intros p h m Hp Hin. apply in_map_iff in Hp as (w & <- & Hw). cbn [fst w_task t_acc] in Hin.
      pose proof (Hok w Hw) as Hw'. destruct (Z.eq_dec h (w_h w)) as [->|Hne].
      * destruct (wo_out _ _ Hw' _ _ Hin eq_refl) as [->| ->]; split; discriminate.
      * destruct (wo_oth _ _ Hw' h m Hin Hne) as [->| ->]; split; discriminate.
  - intros s' Hs'. cbv beta in Hs'. split.
    + intros h. rewrite Hs'. revert h. change (tinv s0 (seq_eff (map (fun w => w_eff w) ws) s0)).
      apply (seq_eff_inv (tinv s0) (map w_task ws)); [|apply tinv_refl].
      clear - Hok. induction ws as [|w l IH]; simpl; constructor.
      * apply w_task_eff, Hok; left; reflexivity.
      * apply IH. intros; apply Hok; right; assumption.
    + intros h. rewrite Hs'.
      rewrite (seq_fold _ s0 h (fun h' => h' <> h /\ forall w, In w ws -> h' <> w_h w)).
      * unfold fold_at, w_fold. rewrite fold_left_map'. apply fold_left_ext'. intros b w. rewrite w_eff_lookup. destruct (h =? w_h w); reflexivity.
      * intros e h' He (_ & Hn). apply in_map_iff in He as (w & <- & Hw). rewrite w_eff_lookup.
        destruct (Z.eqb_spec h' (w_h w)); [exfalso; apply (Hn w Hw); assumption|reflexivity].
      * intros e f s1 s2 He. apply in_map_iff in He as (w & <- & Hw). rewrite w_eff_lookup.
        destruct (Z.eqb_spec h (w_h w)) as [->|]; [|discriminate]. intros [= <-] Hag.
        apply (wo_dep _ _ (Hok w Hw)). intros h' m Hin Hr.
        destruct (Z.eq_dec h' (w_h w)) as [->|Hne]; [apply Hag; left; reflexivity|].
        apply Hag. right. split; [assumption|]. intros w' Hw' ->.
        apply Hne. apply (Hro w w' m); auto. intros ->; discriminate.
Qed.

Lemma one_sound s0 ws : (forall w, In w ws -> w_ok s0 w) -> Forall (sound_task (tinv s0)) (map w_task ws).
Proof.
  intros H. apply Forall_forall. intros t Ht. apply in_map_iff in Ht as (w & <- & Hw).
  eapply task_eff_sound; [apply tinv_ext|]. apply w_task_eff, H, Hw.
Qed.
Lemma one_ordered s0 ws : (forall w, In w ws -> w_ok s0 w) -> Forall ordered_task (map w_task ws).
Proof.
  intros H. apply Forall_forall. intros t Ht h m Hin. apply in_map_iff in Ht as (w & <- & Hw).
  pose proof (H w Hw) as Hok. cbn [w_task t_acc] in Hin. destruct (Z.eq_dec h (w_h w)) as [->|Hne].
  - destruct (wo_out _ _ Hok _ _ Hin eq_refl) as [->| ->]; split; discriminate.
  - destruct (wo_oth _ _ Hok h m Hin Hne) as [->| ->]; split; discriminate.
Qed.

Lemma w_fold_none ws s0 h b : (forall w, In w ws -> w_h w <> h) -> w_fold ws s0 h b = b.
Proof.
  unfold w_fold. revert b; induction ws as [|w ws IH]; intros b H; simpl; [reflexivity|].
  destruct (Z.eqb_spec h (w_h w)); [exfalso; apply (H w); [left; reflexivity|congruence]|].
  apply IH. intros; apply H; right; assumption.
Qed.

Lemma w_fold_app ws1 ws2 s0 h b : w_fold (ws1 ++ ws2) s0 h b = w_fold ws2 s0 h (w_fold ws1 s0 h b).
Proof. apply fold_left_app. Qed.

Lemma w_fold_filter ws s0 h b :
  w_fold ws s0 h b = fold_left (fun b w => w_F w (upd_store s0 h b)) (filter (fun w => h =? w_h w) ws) b.
Proof.
  unfold w_fold. revert b; induction ws as [|w ws IH]; intros b; simpl; [reflexivity|].
  destruct (h =? w_h w); simpl; apply IH.
Qed.

Lemma w_fold_unique ws s0 w : NoDup (map w_h ws) -> In w ws ->
  w_fold ws s0 (w_h w) (s0 (w_h w)) = w_F w (upd_store s0 (w_h w) (s0 (w_h w))).
Proof.
  intros Hnd Hin. apply in_split in Hin as (l1 & l2 & ->). rewrite w_fold_app.
  rewrite map_app in Hnd. simpl in Hnd. apply NoDup_remove_2 in Hnd.
  rewrite (w_fold_none l1).
  - unfold w_fold. simpl. rewrite Z.eqb_refl. apply w_fold_none.
    intros w' Hw' E. apply Hnd, in_or_app. right. rewrite <- E. apply in_map, Hw'.
  - intros w' Hw' E. apply Hnd, in_or_app. left. rewrite <- E. apply in_map, Hw'.
Qed.

Lemma upd_store_id s0 (h : handle) h' : upd_store s0 h (s0 h : buf T) h' = s0 h'.
Proof. unfold upd_store. destruct (Z.eqb_spec h' h); congruence. Qed.

Lemma w_F_ext s0 w s1 s2 : w_ok s0 w -> (forall h, s1 h = s2 h) -> w_F w s1 = w_F w s2.
Proof. intros H E. apply (wo_dep _ _ H). intros; apply E. Qed.

(** Handles written exactly once hold the value computed from the initial state. *)
Theorem one_runs_unique s0 ws (r : res (list (task T))) :
  r = Ok (map w_task ws) ->
  (forall w, In w ws -> w_ok s0 w) ->
  (forall w w' m, In w ws -> In w' ws -> In (w_h w', m) (w_acc w) -> m <> MSCRATCH -> w_h w' = w_h w) ->
  NoDup (map w_h ws) ->
  runs r s0 (fun s' => (forall w, In w ws -> s' (w_h w) = w_F w s0) /\
    (forall h, (forall w, In w ws -> w_h w <> h) -> s' h = s0 h)).
Proof.
  intros -> Hok Hro Hnd. eexists. split; [reflexivity|]. split; [apply one_sound; assumption|].
  split; [eapply one_ordered; eassumption|].
  eapply always_weaken; [apply one_always; assumption|]. intros s' (Ht & Hs'). split; [assumption|]. split.
  - intros w Hw. rewrite Hs', w_fold_unique by assumption.
    apply (w_F_ext s0); [apply Hok; assumption|]. apply upd_store_id.
  - intros h Hh. rewrite Hs'. apply w_fold_none. assumption.
Qed.

Theorem one_runs s0 ws (r : res (list (task T))) :
  r = Ok (map w_task ws) ->
  (forall w, In w ws -> w_ok s0 w) ->
  (forall w w' m, In w ws -> In w' ws -> In (w_h w', m) (w_acc w) -> m <> MSCRATCH -> w_h w' = w_h w) ->
  runs r s0 (fun s' => forall h, s' h = w_fold ws s0 h (s0 h)).
Proof.
  intros -> Hok Hro. eexists. split; [reflexivity|]. split; [apply one_sound; assumption|].
  split; [eapply one_ordered; eassumption|].
  apply one_always; assumption.
Qed.

(** *** The usual access lists *)
Lemma w_ok_last s0 (rd : list handle) h m body F :
  m = MW \/ m = MRW -> ~ In h rd ->
  (forall s1 s2, (forall x, In x rd -> s1 x = s2 x) -> (m = MRW -> s1 h = s2 h) -> F s1 = F s2) ->
  (forall s, tinv s0 s -> ty (F s) = ty (s0 h)) ->
  (forall s b, tinv s0 s -> ty b = ty (s0 h) -> (m = MRW -> b = s h) ->
     body (map s rd ++ [b]) = Ok (map s rd ++ [F s])) ->
  w_ok s0 (mkW (map (fun x => (x, MR)) rd ++ [(h, m)]) body h F).
Proof.
  intros Hm Hn Hdep Hty Hb. constructor; cbn [w_acc w_body w_h w_F].
  - exists m. split; [apply in_or_app; right; left; reflexivity|assumption].
  - intros h' m' Hin ->. apply in_app_or in Hin as [Hin|[E|[]]].
    + apply in_map_iff in Hin as (x & E & Hx). inversion E; subst. contradiction.
    + inversion E; subst; assumption.
  - intros h' m' Hin Hne. apply in_app_or in Hin as [Hin|[E|[]]].
    + apply in_map_iff in Hin as (x & E & Hx). inversion E; subst. auto.
    + inversion E; subst; contradiction.
  - intros s1 s2 Hag. apply Hdep.
    + intros x Hx. apply (Hag x MR); [|reflexivity]. apply in_or_app; left. apply in_map_iff; eauto.
    + intros ->. apply (Hag h MRW); [|reflexivity]. apply in_or_app; right; left; reflexivity.
  - assumption.
  - intros s hv Hs Hhv. rewrite map_app, map_map. cbn [map].
    change (map (fun x => in_buf s hv (x, MR)) rd) with (map s rd).
    eexists. split; [apply Hb|split].
    + assumption.
    + unfold in_buf; cbn [fst snd]. destruct (reads m); [apply Hs|rewrite Hhv; apply Hs].
    + intros ->. reflexivity.
    + rewrite !app_length, !map_length. reflexivity.
    + intros k h' m' b Ha Hbk Hm'.
      destruct (Nat.lt_ge_cases k (List.length rd)) as [Hk|Hk].
      * rewrite nth_error_app1 in Ha by (rewrite map_length; assumption).
        rewrite nth_error_app1 in Hbk by (rewrite map_length; assumption).
        rewrite nth_error_map in Ha, Hbk. destruct (nth_error rd k) as [x|] eqn:E; [|discriminate].
        cbn in Ha, Hbk. inversion Ha; inversion Hbk; subst.
        destruct (Z.eqb_spec h' h) as [->|]; [exfalso; apply Hn; eapply nth_error_In; eassumption|reflexivity].
      * rewrite nth_error_app2 in Ha by (rewrite map_length; assumption).
        rewrite nth_error_app2 in Hbk by (rewrite map_length; assumption).
        rewrite map_length in *. destruct (k - List.length rd)%nat as [|k']; cbn in Ha, Hbk.
        -- inversion Ha; inversion Hbk; subst. rewrite Z.eqb_refl. reflexivity.
        -- destruct k'; discriminate.
Qed.

End OneOut.
Arguments wtask : clear implicits.
