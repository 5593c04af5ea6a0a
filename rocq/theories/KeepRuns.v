(** * Operations that are safe because of the contents of some tensors

    A task that looks up positions in another tensor (an embedding, a label) is only safe, and
    its access modes are only meaningful, while the tensor of indices holds valid indices.  Here the
    generic results of OneOut.v and AccRuns.v are stated for the states in which the tensors
    [ks] keep the contents they had at submission. *)
From Coq Require Import FunctionalExtensionality.
From Verif Require Import Base Spec Geometry Traits TraitsProofs Runtime Ops TensorSem ElemGeneric OneOut AccRuns Sequence Serial NdRuns.

Section Keep.
Context {T : Type}.

(** Same element types and sizes everywhere, same contents in the tensors [ks]. *)
Definition keep (ks : list tensor) (s0 : store T) : store T -> Prop :=
  fun s => tinv s0 s /\ forall t h, In t ks -> In h (tile_handles t) -> s h = s0 h.

(** As [runs], with access modes sound in every state where [ks] keep their contents. *)
Definition runs_keep (ks : list tensor) (r : res (list (task T))) (s : store T) (P : store T -> Prop) : Prop :=
  exists ts, r = Ok ts /\ Forall (sound_task (keep ks s)) ts /\ Forall ordered_task ts /\
    always ts s (fun s' => keep ks s s' /\ P s').

Lemma keep_ext ks s0 : ext_inv (keep ks s0).
Proof. intros s1 s2 E [H1 H2]. split; [apply (tinv_ext s0 s1); assumption|]. intros t h Ht Hh. rewrite <- E. eauto. Qed.
Lemma keep_refl ks s0 : keep ks s0 s0.
Proof. split; [apply tinv_refl|reflexivity]. Qed.
Lemma keep_tinv ks s0 s : keep ks s0 s -> tinv s0 s.
Proof. intros []; assumption. Qed.
Lemma keep_app ks s0 (e : eff T) : (forall h f s, elookup e h = Some f -> keep ks s0 s -> ty (f s) = ty (s0 h)) ->
  (forall h f t, elookup e h = Some f -> In t ks -> ~ In h (tile_handles t)) ->
  forall s, keep ks s0 s -> keep ks s0 (app_eff e s).
Proof.
  intros He Hk s Hs. split.
  - intros h. unfold app_eff. destruct (elookup e h) as [f|] eqn:E; [eauto|apply Hs].
  - intros t h Ht Hh. unfold app_eff. destruct (elookup e h) as [f|] eqn:E; [exfalso; eapply Hk; eauto|].
    destruct Hs as [_ Hs]. eauto.
Qed.

Lemma keep_weaken ks r s (P Q : store T -> Prop) : runs_keep ks r s P -> (forall s', keep ks s s' -> P s' -> Q s') -> runs_keep ks r s Q.
Proof.
  intros (ts & E & Hs & Ho & Ha) H. exists ts. split; [assumption|]. split; [assumption|]. split; [assumption|].
  eapply always_weaken; [exact Ha|]. intros s' []. auto.
Qed.
Lemma keep_ends ks r s (P : store T -> Prop) : runs_keep ks r s P ->
  exists ts s', r = Ok ts /\ steps (ts, s) ([], s') /\ P s'.
Proof.
  intros (ts & E & _ & _ & Ha). destruct (always_terminates _ _ _ Ha) as (s' & H1 & H2 & H3). eauto.
Qed.

(** An operation that does not write [ks]. *)
Lemma runs_runs_keep ks r s P : runs r s P ->
  (forall ts t h m k, r = Ok ts -> In t ts -> In (h, m) (t_acc t) -> writes m = true -> In k ks -> ~ In h (tile_handles k)) ->
  runs_keep ks r s P.
Proof.
  intros (ts & E & Hs & Ho & Ha) Hw. exists ts. split; [assumption|].
  assert (Hs' : Forall (sound_task (keep ks s)) ts).
  { rewrite Forall_forall in Hs |- *. intros t Ht. destruct (Hs t Ht) as [S1 S2]. split.
    - intros st hv [Hi Hk] Hhv. destruct (S1 st hv Hi Hhv) as (s' & E' & Hi' & Hf). exists s'. split; [assumption|].
      split; [|assumption]. split; [assumption|]. intros k h Hik Hh. rewrite Hf; [eauto|].
      intros m Hm. destruct (writes m) eqn:Ew; [|reflexivity]. exfalso. eapply (Hw ts t h m k); eauto.
    - intros s1 hv1 s1' s2 hv2 s2' I1 I2. apply S2; apply (keep_tinv ks); assumption. }
  split; [assumption|]. split; [assumption|].
  destruct (sound_deterministic (keep ks s) ts s (keep_ext ks s) Hs' Ho (keep_refl ks s)) as (s' & _ & Hk & D).
  pose proof (always_det _ _ _ _ D Ha) as [_ HP].
  eapply always_weaken; [exact D|]. intros x ->. split; assumption.
Qed.

Lemma keep_swap ks (s s1 : store T) : keep ks s s1 -> forall x, keep ks s1 x <-> keep ks s x.
Proof.
  intros [H1 H2] x. split; intros [X1 X2]; (split; [apply (tinv_trans s s1 H1); assumption|]).
  - intros t h Ht Hh. rewrite (X2 t h), (H2 t h) by assumption. reflexivity.
  - intros t h Ht Hh. rewrite (X2 t h), (H2 t h) by assumption. reflexivity.
Qed.
Lemma sound_keep ks (s0 s1 : store T) t : keep ks s0 s1 -> sound_task (keep ks s1) t -> sound_task (keep ks s0) t.
Proof.
  intros Ht [H1 H2]. split.
  - intros s hv Hs Hhv. apply (keep_swap ks s0 s1 Ht) in Hs. destruct (H1 s hv Hs Hhv) as (s' & E & Hi & Hf).
    exists s'. split; [assumption|]. split; [apply (keep_swap ks s0 s1 Ht); assumption|assumption].
  - intros x1 hv1 x1' x2 hv2 x2' I1 I2. apply H2; apply (keep_swap ks s0 s1 Ht); assumption.
Qed.

Theorem keep_then ks r1 r2 s P Q : runs_keep ks r1 s P -> (forall s1, keep ks s s1 -> P s1 -> runs_keep ks r2 s1 Q) ->
  runs_keep ks (then_ r1 r2) s Q.
Proof.
  intros (ts1 & E1 & S1 & O1 & A1) H2.
  destruct (sound_deterministic (keep ks s) ts1 s (keep_ext ks s) S1 O1 (keep_refl ks s)) as (s1 & Q1 & I1 & D1).
  destruct (always_det _ _ _ _ D1 A1) as [_ P1].
  destruct (H2 s1 I1 P1) as (ts2 & E2 & S2 & O2 & A2).
  assert (S2' : Forall (sound_task (keep ks s)) ts2) by (eapply Forall_impl; [|exact S2]; intros t; apply sound_keep; assumption).
  exists (ts1 ++ ts2). split; [unfold then_; rewrite E1, E2; reflexivity|].
  split; [apply Forall_app; split; assumption|]. split; [apply Forall_app; split; assumption|].
  destruct (sound_deterministic (keep ks s) (ts1 ++ ts2) s (keep_ext ks s)) as (s' & Q' & I' & D'); [apply Forall_app; split; assumption..|apply keep_refl|].
  eapply always_weaken; [exact D'|]. intros x ->. split; [assumption|].
  destruct (sound_deterministic (keep ks s1) ts2 s1 (keep_ext ks s1) S2 O2 (keep_refl ks s1)) as (s2 & Q2 & I2 & D2).
  rewrite sequential_app, Q1, bind_Ok, Q2 in Q'. inversion Q'; subst. exact (proj2 (always_det _ _ _ _ D2 A2)).
Qed.

(** The result does not depend on the schedule. *)
Theorem keep_deterministic ks r s P : runs_keep ks r s P -> exists ts s', r = Ok ts /\ sequential ts s = Ok s' /\ P s' /\
  always ts s (fun s'' => s'' = s').
Proof.
  intros (ts & E & S & Or & A).
  destruct (sound_deterministic (keep ks s) ts s (keep_ext ks s) S Or (keep_refl ks s)) as (s' & Q & I & D).
  exists ts, s'. split; [assumption|]. split; [assumption|]. split; [exact (proj2 (always_det _ _ _ _ D A))|assumption].
Qed.

(** The out handle is accessed once, with mode W or RW; all others are read-only or scratch. *)
Record kw_ok (ks : list tensor) (s0 : store T) (w : wtask T) : Prop := {
  kwo_in : exists m, In (w_h w, m) (w_acc w) /\ (m = MW \/ m = MRW);
  kwo_out : forall h m, In (h, m) (w_acc w) -> h = w_h w -> m = MW \/ m = MRW;
  kwo_oth : forall h m, In (h, m) (w_acc w) -> h <> w_h w -> m = MR \/ m = MSCRATCH;
  kwo_dep : forall s1 s2, (forall h m, In (h, m) (w_acc w) -> reads m = true -> s1 h = s2 h) ->
    w_F w s1 = w_F w s2;
  kwo_ty : forall s, keep ks s0 s -> ty (w_F w s) = ty (s0 (w_h w));
  kwo_ks : forall t, In t ks -> ~ In (w_h w) (tile_handles t);
  kwo_run : forall s hv, keep ks s0 s -> typed hv s -> exists out,
    w_body w (map (in_buf s hv) (w_acc w)) = Ok out /\ List.length out = List.length (w_acc w) /\
    forall k h m b, nth_error (w_acc w) k = Some (h, m) -> nth_error out k = Some b -> m <> MSCRATCH ->
      b = if h =? w_h w then w_F w s else s h
}.


Lemma kw_task_eff ks s0 w : kw_ok ks s0 w -> task_eff (keep ks s0) (w_task w) (w_eff w).
Proof.
  intros H. apply mk_task_eff.
  - intros s hv Hs Hhv. destruct (kwo_run _ _ _ H s hv Hs Hhv) as (out & E & Hl & Ho).
    exists out. split; [exact E|]. split; [exact Hl|]. intros k h m b Ha Hb Hm.
    rewrite (Ho k h m b Ha Hb Hm). unfold app_eff. rewrite w_eff_lookup.
    destruct (h =? w_h w); reflexivity.
  - intros h f. rewrite w_eff_lookup. destruct (Z.eqb_spec h (w_h w)) as [->|]; [|discriminate].
    intros _. destruct (kwo_in _ _ _ H) as (m & Hm & [->| ->]); eauto.
  - intros h f s1 s2. rewrite w_eff_lookup. destruct (Z.eqb_spec h (w_h w)) as [->|]; [|discriminate].
    intros [= <-] Hag. apply (kwo_dep _ _ _ H). exact Hag.
  - intros h m Hin Hw. rewrite w_eff_lookup. destruct (Z.eqb_spec h (w_h w)) as [->|Hne]; [discriminate|].
    destruct (kwo_oth _ _ _ H h m Hin Hne) as [->| ->]; discriminate.
  - apply keep_app.
    + intros h f s. rewrite w_eff_lookup. destruct (Z.eqb_spec h (w_h w)) as [->|]; [|discriminate].
      intros [= <-]. apply (kwo_ty _ _ _ H).
    + intros h f t. rewrite w_eff_lookup. destruct (Z.eqb_spec h (w_h w)) as [->|]; [|discriminate].
      intros _ Ht. apply (kwo_ks _ _ _ H). assumption.
Qed.


Theorem kone_always ks s0 ws :
  (forall w, In w ws -> kw_ok ks s0 w) ->
  (forall w w' m, In w ws -> In w' ws -> In (w_h w', m) (w_acc w) -> m <> MSCRATCH -> w_h w' = w_h w) ->
  always (map w_task ws) s0 (fun s' => keep ks s0 s' /\ forall h, s' h = w_fold ws s0 h (s0 h)).
Proof.
  intros Hok Hro.
  pose proof (schedule_independence (keep ks s0) (map (fun w => (w_task w, w_eff w)) ws) s0 (keep_ext ks s0)) as Ha.
  rewrite !map_map in Ha. cbn [fst snd] in Ha.
  eapply always_weaken; [apply Ha; [|apply keep_refl]|].
  - apply detlist_no_comm.
    + intros p Hp. apply in_map_iff in Hp as (w & <- & Hw). apply kw_task_eff, Hok, Hw.
    + intros p h m Hp Hin. apply in_map_iff in Hp as (w & <- & Hw). cbn [fst w_task t_acc] in Hin.
      pose proof (Hok w Hw) as Hw'. destruct (Z.eq_dec h (w_h w)) as [->|Hne].
      * destruct (kwo_out _ _ _ Hw' _ _ Hin eq_refl) as [->| ->]; split; discriminate.
      * destruct (kwo_oth _ _ _ Hw' h m Hin Hne) as [->| ->]; split; discriminate.
  - intros s' Hs'. cbv beta in Hs'. split.
    + apply (keep_ext ks s0 (seq_eff (map (fun w => w_eff w) ws) s0)); [intros h; symmetry; apply Hs'|].
      apply (seq_eff_inv (keep ks s0) (map w_task ws)); [|apply keep_refl].
      clear - Hok. induction ws as [|w l IH]; simpl; constructor.
      * apply kw_task_eff, Hok; left; reflexivity.
      * apply IH. intros; apply Hok; right; assumption.
    + intros h. rewrite Hs'.
      rewrite (seq_fold _ s0 h (fun h' => h' <> h /\ forall w, In w ws -> h' <> w_h w)).
      * unfold fold_at, w_fold. rewrite fold_left_map'. apply fold_left_ext'. intros b w. rewrite w_eff_lookup. destruct (h =? w_h w); reflexivity.
      * intros e h' He (_ & Hn). apply in_map_iff in He as (w & <- & Hw). rewrite w_eff_lookup.
        destruct (Z.eqb_spec h' (w_h w)); [exfalso; apply (Hn w Hw); assumption|reflexivity].
      * intros e f s1 s2 He. apply in_map_iff in He as (w & <- & Hw). rewrite w_eff_lookup.
        destruct (Z.eqb_spec h (w_h w)) as [->|]; [|discriminate]. intros [= <-] Hag.
        apply (kwo_dep _ _ _ (Hok w Hw)). intros h' m Hin Hr.
        destruct (Z.eq_dec h' (w_h w)) as [->|Hne]; [apply Hag; left; reflexivity|].
        apply Hag. right. split; [assumption|]. intros w' Hw' ->.
        apply Hne. apply (Hro w w' m); auto. intros ->; discriminate.
Qed.


Lemma kone_sound ks s0 ws : (forall w, In w ws -> kw_ok ks s0 w) -> Forall (sound_task (keep ks s0)) (map w_task ws).
Proof.
  intros H. apply Forall_forall. intros t Ht. apply in_map_iff in Ht as (w & <- & Hw).
  eapply task_eff_sound; [apply keep_ext|]. apply kw_task_eff, H, Hw.
Qed.
Lemma kone_ordered ks s0 ws : (forall w, In w ws -> kw_ok ks s0 w) -> Forall ordered_task (map w_task ws).
Proof.
  intros H. apply Forall_forall. intros t Ht h m Hin. apply in_map_iff in Ht as (w & <- & Hw).
  pose proof (H w Hw) as Hok. cbn [w_task t_acc] in Hin. destruct (Z.eq_dec h (w_h w)) as [->|Hne].
  - destruct (kwo_out _ _ _ Hok _ _ Hin eq_refl) as [->| ->]; split; discriminate.
  - destruct (kwo_oth _ _ _ Hok h m Hin Hne) as [->| ->]; split; discriminate.
Qed.


Theorem kone_runs ks s0 ws (r : res (list (task T))) :
  r = Ok (map w_task ws) ->
  (forall w, In w ws -> kw_ok ks s0 w) ->
  (forall w w' m, In w ws -> In w' ws -> In (w_h w', m) (w_acc w) -> m <> MSCRATCH -> w_h w' = w_h w) ->
  runs_keep ks r s0 (fun s' => forall h, s' h = w_fold ws s0 h (s0 h)).
Proof.
  intros -> Hok Hro. eexists. split; [reflexivity|]. split; [apply kone_sound; assumption|].
  split; [eapply kone_ordered; eassumption|].
  apply kone_always; assumption.
Qed.


Lemma kw_ok_gen ks s0 pre h m post scr body (F : store T -> buf T) :
  m = MW \/ m = MRW -> ~ In h pre -> ~ In h post -> ~ In h scr -> (forall t, In t ks -> ~ In h (tile_handles t)) ->
  (forall s1 s2, (forall x, In x pre -> s1 x = s2 x) -> (forall x, In x post -> s1 x = s2 x) ->
     (m = MRW -> s1 h = s2 h) -> F s1 = F s2) ->
  (forall s, keep ks s0 s -> ty (F s) = ty (s0 h)) ->
  (forall s b sc, keep ks s0 s -> ty b = ty (s0 h) -> (m = MRW -> b = s h) ->
     map ty sc = map (fun x => ty (s0 x)) scr ->
     exists sc', body (map s pre ++ b :: map s post ++ sc) = Ok (map s pre ++ F s :: map s post ++ sc') /\
       List.length sc' = List.length scr) ->
  kw_ok ks s0 (mkW (mk_acc pre h m post scr) body h F).
Proof.
  intros Hm Hn1 Hn2 Hn3 Hks Hdep Hty Hb. unfold mk_acc. constructor; cbn [w_acc w_body w_h w_F].
  - exists m. split; [apply in_or_app; right; left; reflexivity|assumption].
  - intros h' m' Hin ->. apply in_app_or in Hin as [Hin|[E|Hin]].
    + apply in_map_iff in Hin as (x & E & Hx). inversion E; subst. contradiction.
    + inversion E; subst; assumption.
    + apply in_app_or in Hin as [Hin|Hin]; apply in_map_iff in Hin as (x & E & Hx); inversion E; subst; contradiction.
  - intros h' m' Hin Hne. apply in_app_or in Hin as [Hin|[E|Hin]].
    + apply in_map_iff in Hin as (x & E & Hx). inversion E; subst. auto.
    + inversion E; subst; contradiction.
    + apply in_app_or in Hin as [Hin|Hin]; apply in_map_iff in Hin as (x & E & Hx); inversion E; subst; auto.
  - intros s1 s2 Hag. apply Hdep.
    + intros x Hx. apply (Hag x MR); [|reflexivity]. apply in_or_app; left. apply in_map_iff; eauto.
    + intros x Hx. apply (Hag x MR); [|reflexivity]. apply in_or_app; right; right. apply in_or_app; left. apply in_map_iff; eauto.
    + intros ->. apply (Hag h MRW); [|reflexivity]. apply in_or_app; right; left; reflexivity.
  - assumption.
  - assumption.
  - intros s hv Hs Hhv. rewrite map_app, map_map. cbn [map]. rewrite map_app, !map_map.
    change (map (fun x => in_buf s hv (x, MR)) pre) with (map s pre).
    change (map (fun x => in_buf s hv (x, MR)) post) with (map s post).
    change (map (fun x => in_buf s hv (x, MSCRATCH)) scr) with (map hv scr).
    destruct (Hb s (in_buf s hv (h, m)) (map hv scr)) as (sc' & E & Hl).
    + assumption.
    + unfold in_buf; cbn [fst snd]. destruct (reads m); [apply Hs|rewrite Hhv; apply Hs].
    + intros ->. reflexivity.
    + rewrite map_map. apply map_ext. intros x. rewrite Hhv. apply Hs.
    + eexists. split; [exact E|split].
      { rewrite !app_length. cbn [List.length]. rewrite !app_length, !map_length, Hl. reflexivity. }
      intros k h' m' b Ha Hbk Hm'.
      destruct (Nat.lt_ge_cases k (List.length pre)) as [Hk|Hk].
      * rewrite nth_error_app1 in Ha by (rewrite map_length; assumption).
        rewrite nth_error_app1 in Hbk by (rewrite map_length; assumption).
        rewrite nth_error_map' in Ha. rewrite nth_error_map' in Hbk. destruct (nth_error pre k) as [x|] eqn:E'; [|discriminate].
        cbn in Ha, Hbk. inversion Ha; inversion Hbk; subst.
        destruct (Z.eqb_spec h' h) as [->|]; [exfalso; apply Hn1; eapply nth_error_In; eassumption|reflexivity].
      * rewrite nth_error_app2 in Ha by (rewrite map_length; assumption).
        rewrite nth_error_app2 in Hbk by (rewrite map_length; assumption).
        rewrite map_length in *. destruct (k - List.length pre)%nat as [|k']; cbn in Ha, Hbk.
        -- inversion Ha; inversion Hbk; subst. rewrite Z.eqb_refl. reflexivity.
        -- destruct (Nat.lt_ge_cases k' (List.length post)) as [Hk'|Hk'].
           ++ rewrite nth_error_app1 in Ha by (rewrite map_length; assumption).
              rewrite nth_error_app1 in Hbk by (rewrite map_length; assumption).
              rewrite nth_error_map' in Ha. rewrite nth_error_map' in Hbk. destruct (nth_error post k') as [x|] eqn:E'; [|discriminate].
              cbn in Ha, Hbk. inversion Ha; inversion Hbk; subst.
              destruct (Z.eqb_spec h' h) as [->|]; [exfalso; apply Hn2; eapply nth_error_In; eassumption|reflexivity].
           ++ rewrite nth_error_app2 in Ha by (rewrite map_length; assumption).
              rewrite nth_error_map' in Ha. destruct (nth_error scr _) as [x|] eqn:E'; [|discriminate].
              cbn in Ha. inversion Ha; subst. contradiction.
Qed.


Context {DT : Dflt T}.

(** Many tasks [xs], each updating tile [out x] of [D]: the old content [d] of the tile
    becomes [F x bs1 bs2 d] where bs1, bs2 are the contents of the inputs. *)
Theorem kacc_runs {X} ks (D : tensor) (xs : list X) (out : X -> Z) (md : X -> mode)
    (pre post scr : X -> list handle) (body : X -> list (buf T) -> res (list (buf T)))
    (F : X -> list (buf T) -> list (buf T) -> list T -> list T) s r :
  wft D -> stored KF s D ->
  r = Ok (map (fun x => mkTask (mk_acc (pre x) (th D (out x)) (md x) (post x) (scr x)) (body x)) xs) ->
  (forall x, In x xs -> 0 <= out x < ntiles D) ->
  (forall x, In x xs -> md x = MW \/ md x = MRW) ->
  (forall x h, In x xs -> In h (pre x) \/ In h (post x) \/ In h (scr x) -> ~ In h (tile_handles D)) ->
  (forall k, In k ks -> disj D k) ->
  (forall x b1 b2 d d', In x xs -> md x = MW -> zlen d = zlen d' -> F x b1 b2 d = F x b1 b2 d') ->
  (forall x st d, In x xs -> keep ks s st -> zlen d = tsz D (out x) ->
     zlen (F x (map st (pre x)) (map st (post x)) d) = tsz D (out x)) ->
  (forall x st d sc, In x xs -> keep ks s st -> zlen d = tsz D (out x) ->
     map ty sc = map (fun h => ty (s h)) (scr x) ->
     exists sc', body x (map st (pre x) ++ BF d :: map st (post x) ++ sc) =
       Ok (map st (pre x) ++ BF (F x (map st (pre x)) (map st (post x)) d) :: map st (post x) ++ sc') /\
       List.length sc' = List.length (scr x)) ->
  runs_keep ks r s (fun s' =>
    (forall i, 0 <= i < ntiles D ->
       s' (th D i) = BF (fold_left (fun d x => F x (map s (pre x)) (map s (post x)) d)
                          (filter (fun x => out x =? i) xs) (fl (s (th D i))))) /\
    frame [D] s s').
Proof.
  intros HD Hst -> Ho Hm Hsep Hdk Hw Hlen Hb.
  (* for write-only tasks the old value is replaced by the initial one *)
  set (old := fun x (st : store T) => match md x with MRW => fl (st (th D (out x))) | _ => fl (s (th D (out x))) end).
  set (G := fun x (st : store T) => BF (F x (map st (pre x)) (map st (post x)) (old x st))).
  set (ws := map (fun x => mkW (mk_acc (pre x) (th D (out x)) (md x) (post x) (scr x)) (body x) (th D (out x)) (G x)) xs).
  assert (Hs0 : forall i, 0 <= i < ntiles D -> exists l, s (th D i) = BF l /\ zlen l = tsz D i).
  { intros i Hi. apply ty_BF. apply Hst. assumption. }
  assert (Hold : forall x st, In x xs -> keep ks s st -> zlen (old x st) = tsz D (out x)).
  { intros x st Hx Hti. unfold old. destruct (Hs0 _ (Ho x Hx)) as (l & El & Hl).
    assert (E : forall b : buf T, ty b = ty (s (th D (out x))) -> zlen (fl b) = tsz D (out x)).
    { intros b Hb'. rewrite El in Hb'. destruct b; inversion Hb'; subst. cbn. congruence. }
    destruct (md x); apply E; auto; apply Hti. }
  assert (Hok : forall w, In w ws -> kw_ok ks s w).
  { intros w Hin. apply in_map_iff in Hin as (x & <- & Hx). apply kw_ok_gen.
    - apply Hm, Hx.
    - intros Hi. apply (Hsep x (th D (out x)) Hx); [auto|]. apply th_In; auto.
    - intros Hi. apply (Hsep x (th D (out x)) Hx); [auto|]. apply th_In; auto.
    - intros Hi. apply (Hsep x (th D (out x)) Hx); [auto|]. apply th_In; auto.
    - intros t Ht Hi. apply (Hdk t Ht (th D (out x))); [apply th_In; auto|assumption].
    - intros s1 s2 H1 H2 H3. unfold G. f_equal. rewrite (map_ext_in s1 s2 (pre x)) by assumption.
      rewrite (map_ext_in s1 s2 (post x)) by assumption. f_equal. unfold old.
      destruct (md x); try reflexivity. rewrite H3; reflexivity.
    - intros st Hti. unfold G. destruct (Hs0 _ (Ho x Hx)) as (l & El & Hl). rewrite El. cbn [ty].
      rewrite Hlen; auto. congruence.
    - intros st b sc Hti Htb Hbb Hsc. destruct (Hs0 _ (Ho x Hx)) as (l & El & Hl).
      assert (exists d, b = BF d /\ zlen d = tsz D (out x)) as (d & -> & Hd).
      { rewrite El in Htb. destruct b; inversion Htb; subst. eexists. split; [reflexivity|congruence]. }
      destruct (Hb x st d sc Hx Hti Hd Hsc) as (sc' & E & Hlsc). exists sc'. split; [|assumption].
      rewrite E. unfold G. do 4 f_equal.
      destruct (Hm x Hx) as [Emd|Emd].
      + apply Hw; auto. rewrite Hold by assumption. assumption.
      + unfold old. rewrite Emd. rewrite <- Hbb by assumption. reflexivity. }
  eapply keep_weaken; [apply (kone_runs ks s ws)|].
  - unfold ws. rewrite map_map. reflexivity.
  - assumption.
  - intros w w' m Hiw Hiw' Hin Hns. apply in_map_iff in Hiw as (x & <- & Hx). apply in_map_iff in Hiw' as (x' & <- & Hx').
    cbn [w_h w_acc] in *. unfold mk_acc in Hin. apply in_app_or in Hin as [Hin|[E|Hin]].
    + exfalso. apply in_map_iff in Hin as (y & E & Hy). inversion E; subst.
      apply (Hsep x (th D (out x')) Hx); [auto|]. apply th_In; auto.
    + inversion E; reflexivity.
    + exfalso. apply in_app_or in Hin as [Hin|Hin]; apply in_map_iff in Hin as (y & E & Hy); inversion E; subst;
        (apply (Hsep x (th D (out x')) Hx); [auto|]; apply th_In; auto).
  - intros s' Hti Hs'. split.
    + intros i Hi. rewrite Hs'. destruct (Hs0 i Hi) as (l & El & Hl).
      assert (Gen : forall ys d, incl ys xs -> zlen d = tsz D i ->
        w_fold (map (fun x => mkW (mk_acc (pre x) (th D (out x)) (md x) (post x) (scr x)) (body x) (th D (out x)) (G x)) ys)
          s (th D i) (BF d) =
        BF (fold_left (fun d x => F x (map s (pre x)) (map s (post x)) d) (filter (fun x => out x =? i) ys) d)).
      { induction ys as [|x ys IH]; intros d Hincl Hd; [reflexivity|].
        assert (Hx : In x xs) by (apply Hincl; left; reflexivity).
        assert (Hincl' : incl ys xs) by (intros y Hy; apply Hincl; right; assumption).
        unfold w_fold. cbn [map fold_left filter w_h w_F].
        destruct (Z.eqb_spec (out x) i) as [Eo|Eo].
        - rewrite Eo, Z.eqb_refl. cbn [fold_left].
          set (st := upd_store s (th D i) (BF d)).
          assert (Hst1 : forall h, In h (pre x) \/ In h (post x) -> st h = s h).
          { intros h Hh. unfold st, upd_store. destruct (Z.eqb_spec h (th D i)) as [->|]; [|reflexivity].
            exfalso. apply (Hsep x (th D i) Hx); [tauto|]. apply th_In; auto. }
          assert (EG : G x st = BF (F x (map s (pre x)) (map s (post x)) d)).
          { unfold G. rewrite (map_ext_in st s (pre x)) by auto. rewrite (map_ext_in st s (post x)) by auto.
            f_equal. destruct (Hm x Hx) as [Emd|Emd].
            - apply Hw; auto. unfold old. rewrite Emd, Eo, El. cbn. congruence.
            - f_equal. unfold old. rewrite Emd, Eo. unfold st, upd_store. rewrite Z.eqb_refl. reflexivity. }
          rewrite EG. apply (IH _ Hincl'). rewrite <- Eo. apply Hlen; auto.
          { apply keep_refl. } { rewrite Eo; assumption. }
        - destruct (Z.eqb_spec (th D i) (th D (out x))) as [E|_].
          + exfalso. apply Eo. symmetry. apply (th_inj D); auto.
          + apply (IH _ Hincl' Hd). }
      rewrite El. cbn [fl]. apply Gen; [apply incl_refl|assumption].
    + intros h Hh. rewrite Hs'. apply w_fold_none. intros w Hin. apply in_map_iff in Hin as (x & <- & Hx). cbn [w_h].
      intros <-. apply (Hh D); [left; reflexivity|]. apply th_In; auto.
Qed.

(** The same, element by element: task [x] replaces the element at offset [o] of its tile, of
    value [v], by [G x bs1 bs2 o v]. *)
Theorem kacc_elem {X} ks (D : tensor) (xs : list X) (out : X -> Z) (md : X -> mode)
    (pre post scr : X -> list handle) (body : X -> list (buf T) -> res (list (buf T)))
    (G : X -> list (buf T) -> list (buf T) -> Z -> T -> T) s r :
  wft D -> stored KF s D ->
  r = Ok (map (fun x => mkTask (mk_acc (pre x) (th D (out x)) (md x) (post x) (scr x)) (body x)) xs) ->
  (forall x, In x xs -> 0 <= out x < ntiles D) ->
  (forall x, In x xs -> md x = MW \/ md x = MRW) ->
  (forall x h, In x xs -> In h (pre x) \/ In h (post x) \/ In h (scr x) -> ~ In h (tile_handles D)) ->
  (forall k, In k ks -> disj D k) ->
  (forall x b1 b2 o v v', In x xs -> md x = MW -> G x b1 b2 o v = G x b1 b2 o v') ->
  (forall x st d sc, In x xs -> keep ks s st -> zlen d = tsz D (out x) ->
     map ty sc = map (fun h => ty (s h)) (scr x) ->
     exists sc', body x (map st (pre x) ++ BF d :: map st (post x) ++ sc) =
       Ok (map st (pre x) ++ BF (ztab (tsz D (out x)) (fun o => G x (map st (pre x)) (map st (post x)) o (zn d o)))
             :: map st (post x) ++ sc') /\
       List.length sc' = List.length (scr x)) ->
  runs_keep ks r s (fun s' =>
    (forall idx, inb (t_shape D) idx ->
       elem s' D idx = fold_left (fun v x => G x (map s (pre x)) (map s (post x)) (eoff D idx) v)
                          (filter (fun x => out x =? etile D idx) xs) (elem s D idx)) /\
    frame [D] s s').
Proof.
  intros HD Hst Hr Ho Hm Hsep Hdk Hw Hb.
  eapply keep_weaken; [apply (kacc_runs ks D xs out md pre post scr body
    (fun x b1 b2 d => ztab (zlen d) (fun o => G x b1 b2 o (zn d o))) s r); auto|].
  - intros x b1 b2 d d' Hx Hmd Hl. rewrite Hl. apply ztab_ext. intros i _. apply Hw; assumption.
  - intros x st d Hx Hti Hd. rewrite zlen_ztab; [assumption|apply zlen_nonneg].
  - intros x st d sc Hx Hti Hd Hsc. destruct (Hb x st d sc Hx Hti Hd Hsc) as (sc' & E & Hl).
    exists sc'. rewrite Hd. split; assumption.
  - intros s' _ [H1 H2]. split; [|assumption]. intros idx Hi.
    pose proof (etile_bound D idx HD Hi) as Hi'. pose proof (eoff_bound D idx HD Hi) as Ho'.
    unfold elem. rewrite H1 by assumption. cbn [fl].
    destruct (ty_BF _ _ (Hst _ Hi')) as (l & El & Hl). rewrite El. cbn [fl].
    generalize (filter (fun x => out x =? etile D idx) xs). intros ys.
    assert (Gn : forall ys d, zlen d = tsz D (etile D idx) ->
      zn (fold_left (fun d x => ztab (zlen d) (fun o => G x (map s (pre x)) (map s (post x)) o (zn d o))) ys d) (eoff D idx)
      = fold_left (fun v x => G x (map s (pre x)) (map s (post x)) (eoff D idx) v) ys (zn d (eoff D idx))).
    { clear ys. induction ys as [|y ys IH]; intros d Hd; [reflexivity|]. cbn [fold_left]. rewrite IH.
      - rewrite zn_ztab by lia. reflexivity.
      - rewrite zlen_ztab; lia. }
    apply Gn. assumption.
Qed.


End Keep.
