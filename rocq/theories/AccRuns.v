(** * Generic results for operations made of tasks that each update one tile of one tensor,
      and argument checks *)
From Verif Require Import Base Spec Geometry Traits TraitsProofs Runtime Ops TensorSem ElemGeneric OneOut.

(** ** Argument checks: [checks Q r]: r returns normally iff Q, otherwise throws *)
Definition checks (Q : Prop) (r : res unit) : Prop := (Q /\ r = Ok tt) \/ (~ Q /\ throws r).

Lemma checks_ok : checks True (Ok tt).
Proof. left; auto. Qed.
Lemma checks_iff P Q r : (P <-> Q) -> checks P r -> checks Q r.
Proof. intros E [[H1 H2]|[H1 H2]]; [left|right]; split; tauto || assumption. Qed.
Lemma checks_if (b : bool) msg P Q k :
  (b = true -> ~ P) -> (b = false -> P) -> (P -> checks Q k) -> checks (P /\ Q) (throw_if b msg k).
Proof.
  intros H1 H2 H3. unfold throw_if. destruct b.
  - right. split; [intros [HP _]; apply H1; auto|eexists; reflexivity].
  - destruct (H3 (H2 eq_refl)) as [[HQ E]|[HQ E]]; [left|right]; split; auto; tauto.
Qed.
Lemma checks_eq (a b : Z) msg Q k : (a = b -> checks Q k) ->
  checks (a = b /\ Q) (throw_if (negb (a =? b)) msg k).
Proof. intros H. apply checks_if; auto; destruct (Z.eqb_spec a b); cbn; congruence. Qed.
Lemma checks_seq P Q r k : checks P r -> (P -> checks Q k) -> checks (P /\ Q) (_ <- r ;; k).
Proof.
  intros [[HP ->]|[HP (msg & ->)]] H.
  - bnd. destruct (H HP) as [[HQ E]|[HQ E]]; [left|right]; split; auto; tauto.
  - right. split; [tauto|eexists; reflexivity].
Qed.
Lemma checks_for lo hi (Q : Z -> Prop) body :
  (forall i, lo <= i < hi -> checks (Q i) (body i tt)) ->
  checks (forall i, lo <= i < hi -> Q i) (for_ lo hi body tt).
Proof.
  intros H. unfold for_. destruct (Z.le_gt_cases hi lo) as [Hle|Hgt].
  { replace (Z.to_nat (hi - lo)) with O by lia. left. split; [intros; lia|reflexivity]. }
  assert (G : forall n lo, (forall i, lo <= i < lo + Z.of_nat n -> checks (Q i) (body i tt)) ->
    checks (forall i, lo <= i < lo + Z.of_nat n -> Q i) (for_nat n lo body tt)).
  { clear. induction n as [|n IH]; intros lo H.
    - left. split; [intros; lia|reflexivity].
    - simpl. destruct (H lo ltac:(lia)) as [[HQ E]|[HQ (msg & E)]]; rewrite E.
      + bnd. destruct (IH (lo + 1)) as [[HQ' E']|[HQ' E']].
        * intros i Hi. apply H. lia.
        * left. split; [|assumption]. intros i Hi. destruct (Z.eq_dec i lo) as [->|]; [assumption|]. apply HQ'. lia.
        * right. split; [|assumption]. intros HA. apply HQ'. intros i Hi. apply HA. lia.
      + right. split; [|eexists; reflexivity]. intros HA. apply HQ. apply HA. lia. }
  specialize (G (Z.to_nat (hi - lo)) lo). replace (lo + Z.of_nat (Z.to_nat (hi - lo))) with hi in G by lia.
  apply G. assumption.
Qed.
Lemma checks_use {A} Q r (k : res A) : checks Q r -> (Q -> (_ <- r ;; k) = k) /\ (~ Q -> throws (_ <- r ;; k)).
Proof.
  intros [[HQ ->]|[HQ (msg & ->)]]; split; intros H; try contradiction; [reflexivity|]. eexists; reflexivity.
Qed.

Lemma checks_true Q r : checks Q r -> Q -> r = Ok tt.
Proof. intros [[_ E]|[H _]] HQ; [assumption|contradiction]. Qed.
Lemma checks_false {A} Q r (k : unit -> res A) : checks Q r -> ~ Q -> throws (bind r k).
Proof. intros [[H _]|[_ (msg & ->)]] HQ; [contradiction|]. eexists; reflexivity. Qed.

(** ** Loops that submit tasks *)
Lemma for_flat {A} n (body : Z -> list A -> res (list A)) (f : Z -> list A) acc :
  (forall i acc, 0 <= i < n -> body i acc = Ok (acc ++ f i)) ->
  for_ 0 n body acc = Ok (acc ++ flat_map f (zrange n)).
Proof.
  intros H. destruct (Z.le_gt_cases n 0) as [Hle|Hgt].
  { rewrite for_empty, zrange_neg by lia. rewrite app_nil_r. reflexivity. }
  destruct (for_inv (fun k st => st = acc ++ flat_map f (zrange k)) 0 n body acc) as (st & E & ->).
  - lia.
  - rewrite zrange_neg by lia. rewrite app_nil_r. reflexivity.
  - intros i st Hi ->. eexists. split; [apply H; lia|]. rewrite zrange_succ by lia.
    rewrite flat_map_app, app_assoc. simpl. rewrite app_nil_r. reflexivity.
  - exact E.
Qed.
Lemma for_map {A} n (body : Z -> list A -> res (list A)) (f : Z -> A) acc :
  (forall i acc, 0 <= i < n -> body i acc = Ok (acc ++ [f i])) ->
  for_ 0 n body acc = Ok (acc ++ map f (zrange n)).
Proof.
  intros H. rewrite (for_flat n body (fun i => [f i])) by assumption. reflexivity.
Qed.

Lemma map_flat_map {A B C} (g : B -> C) (f : A -> list B) l : map g (flat_map f l) = flat_map (fun x => map g (f x)) l.
Proof. induction l; simpl; [reflexivity|]. rewrite map_app. congruence. Qed.
Lemma flat_map_pairs {A B C} (g : A -> B -> C) l k :
  flat_map (fun i => map (g i) k) l = map (fun p => g (fst p) (snd p)) (list_prod l k).
Proof. induction l; simpl; [reflexivity|]. rewrite map_app, IHl, map_map. reflexivity. Qed.
Lemma filter_app' {A} (f : A -> bool) l1 l2 : filter f (l1 ++ l2) = filter f l1 ++ filter f l2.
Proof. induction l1; simpl; [reflexivity|]. destruct (f a); simpl; congruence. Qed.
Lemma filter_none {A} (f : A -> bool) l : (forall x, In x l -> f x = false) -> filter f l = [].
Proof. induction l; simpl; intros H; [reflexivity|]. rewrite H by auto. apply IHl. auto. Qed.
Lemma filter_all {A} (f : A -> bool) l : (forall x, In x l -> f x = true) -> filter f l = l.
Proof. induction l; simpl; intros H; [reflexivity|]. rewrite H by auto. f_equal. apply IHl. auto. Qed.
Lemma filter_ext' {A} (f g : A -> bool) l : (forall x, In x l -> f x = g x) -> filter f l = filter g l.
Proof. induction l; simpl; intros H; [reflexivity|]. rewrite H, IHl by auto. reflexivity. Qed.
Lemma filter_prod_fst (l k : list Z) i : NoDup l -> In i l ->
  filter (fun p => fst p =? i) (list_prod l k) = map (pair i) k.
Proof.
  induction 1 as [|x l Hx Hnd IH]; intros Hi; [destruct Hi|]. simpl. rewrite filter_app'.
  destruct Hi as [->|Hi].
  - rewrite (filter_all _ (map _ k)) by (intros p Hp; apply in_map_iff in Hp as (y & <- & _); simpl; apply Z.eqb_refl).
    rewrite filter_none; [apply app_nil_r|]. intros [a b] Hp. apply in_prod_iff in Hp as [Ha _]. simpl.
    apply Z.eqb_neq. congruence.
  - rewrite IH by assumption. rewrite filter_none; [reflexivity|].
    intros p Hp. apply in_map_iff in Hp as (y & <- & _). simpl. apply Z.eqb_neq. congruence.
Qed.
Lemma filter_single {A} (f : A -> bool) l x : NoDup l -> In x l -> f x = true ->
  (forall y, In y l -> f y = true -> y = x) -> filter f l = [x].
Proof.
  induction 1 as [|y l Hy Hnd IH]; intros Hi Hf Hu; [destruct Hi|]. simpl.
  destruct Hi as [->|Hi].
  - rewrite Hf, filter_none; [reflexivity|]. intros z Hz. destruct (f z) eqn:E; [|reflexivity].
    exfalso. apply Hy. rewrite <- (Hu z) by (auto; right; assumption). assumption.
  - destruct (f y) eqn:E.
    + exfalso. apply Hy. rewrite (Hu y) by (auto; left; reflexivity). assumption.
    + apply IH; auto. intros z Hz. apply Hu. right; assumption.
Qed.
Lemma NoDup_prod {A B} (l : list A) (k : list B) : NoDup l -> NoDup k -> NoDup (list_prod l k).
Proof.
  induction 1 as [|x l Hx Hl IH]; intros Hk; simpl; [constructor|].
  assert (G : forall l1 l2 : list (A * B), NoDup l1 -> NoDup l2 -> (forall p, In p l1 -> ~ In p l2) -> NoDup (l1 ++ l2)).
  { clear. induction 1; simpl; intros H2 Hd; [assumption|]. constructor.
    - rewrite in_app_iff. intros [?|?]; [contradiction|]. apply (Hd x); simpl; auto.
    - apply IHNoDup; simpl in *; auto. }
  apply G.
  - clear - Hk. induction Hk; simpl; constructor; auto. intros Hin. apply in_map_iff in Hin as (y & E & Hy). congruence.
  - auto.
  - intros [a b] H1 H2. apply in_map_iff in H1 as (y & E & _). inversion E; subst.
    apply in_prod_iff in H2 as [H2 _]. contradiction.
Qed.

Section Acc.
Context {T : Type}.

(** A task with inputs [pre], the updated tile, inputs [post] and scratch buffers [scr]. *)
Definition mk_acc (pre : list handle) (h : handle) (m : mode) (post scr : list handle) : list (handle * mode) :=
  map (fun x => (x, MR)) pre ++ (h, m) :: map (fun x => (x, MR)) post ++ map (fun x => (x, MSCRATCH)) scr.

Lemma nth_error_map' {A B} (f : A -> B) l n : nth_error (map f l) n = option_map f (nth_error l n).
Proof. revert n; induction l; destruct n; simpl; auto. Qed.

Lemma w_ok_gen s0 pre h m post scr body (F : store T -> buf T) :
  m = MW \/ m = MRW -> ~ In h pre -> ~ In h post -> ~ In h scr ->
  (forall s1 s2, (forall x, In x pre -> s1 x = s2 x) -> (forall x, In x post -> s1 x = s2 x) ->
     (m = MRW -> s1 h = s2 h) -> F s1 = F s2) ->
  (forall s, tinv s0 s -> ty (F s) = ty (s0 h)) ->
  (forall s b sc, tinv s0 s -> ty b = ty (s0 h) -> (m = MRW -> b = s h) ->
     map ty sc = map (fun x => ty (s0 x)) scr ->
     exists sc', body (map s pre ++ b :: map s post ++ sc) = Ok (map s pre ++ F s :: map s post ++ sc') /\
       List.length sc' = List.length scr) ->
  w_ok s0 (mkW (mk_acc pre h m post scr) body h F).
Proof.
  intros Hm Hn1 Hn2 Hn3 Hdep Hty Hb. unfold mk_acc. constructor; cbn [w_acc w_body w_h w_F].
  - exists m. split; [apply in_or_app; right; left; reflexivity|assumption].
  - intros h' m' Hin ->. apply in_app_or in Hin as [Hin|[E|Hin]].
    + apply in_map_iff in Hin as (x & E & Hx). inversion E; subst. contradiction.
    + inversion E; subst; assumption.
    + apply in_app_or in Hin as [Hin|Hin]; apply in_map_iff in Hin as (x & E & Hx); inversion E; subst; contradiction.
  - intros h' m' Hin Hne. apply in_app_or in Hin as [Hin|[E|Hin]].
    + apply in_map_iff in Hin as (x & E & Hx). inversion E; subst. auto.
    + inversion E; subst; contradiction.
    + apply in_app_or in Hin as [Hin|Hin]; apply in_map_iff in Hin as (x & E & Hx); inversion E; subst; auto.
  - intros s1 s2 Hag. apply Hdep.
    + intros x Hx. apply (Hag x MR); [|reflexivity]. apply in_or_app; left. apply in_map_iff; eauto.
    + intros x Hx. apply (Hag x MR); [|reflexivity]. apply in_or_app; right; right. apply in_or_app; left. apply in_map_iff; eauto.
    + intros ->. apply (Hag h MRW); [|reflexivity]. apply in_or_app; right; left; reflexivity.
  - assumption.
  - intros s hv Hs Hhv. rewrite map_app, map_map. cbn [map]. rewrite map_app, !map_map.
    change (map (fun x => in_buf s hv (x, MR)) pre) with (map s pre).
    change (map (fun x => in_buf s hv (x, MR)) post) with (map s post).
    change (map (fun x => in_buf s hv (x, MSCRATCH)) scr) with (map hv scr).
    destruct (Hb s (in_buf s hv (h, m)) (map hv scr)) as (sc' & E & Hl).
    + assumption.
    + unfold in_buf; cbn [fst snd]. destruct (reads m); [apply Hs|rewrite Hhv; apply Hs].
    + intros ->. reflexivity.
    + rewrite map_map. apply map_ext. intros x. rewrite Hhv. apply Hs.
    + eexists. split; [exact E|split].
      { rewrite !app_length. cbn [List.length]. rewrite !app_length, !map_length, Hl. reflexivity. }
      intros k h' m' b Ha Hbk Hm'.
      destruct (Nat.lt_ge_cases k (List.length pre)) as [Hk|Hk].
      * rewrite nth_error_app1 in Ha by (rewrite map_length; assumption).
        rewrite nth_error_app1 in Hbk by (rewrite map_length; assumption).
        rewrite nth_error_map' in Ha. rewrite nth_error_map' in Hbk. destruct (nth_error pre k) as [x|] eqn:E'; [|discriminate].
        cbn in Ha, Hbk. inversion Ha; inversion Hbk; subst.
        destruct (Z.eqb_spec h' h) as [->|]; [exfalso; apply Hn1; eapply nth_error_In; eassumption|reflexivity].
      * rewrite nth_error_app2 in Ha by (rewrite map_length; assumption).
        rewrite nth_error_app2 in Hbk by (rewrite map_length; assumption).
        rewrite map_length in *. destruct (k - List.length pre)%nat as [|k']; cbn in Ha, Hbk.
        -- inversion Ha; inversion Hbk; subst. rewrite Z.eqb_refl. reflexivity.
        -- destruct (Nat.lt_ge_cases k' (List.length post)) as [Hk'|Hk'].
           ++ rewrite nth_error_app1 in Ha by (rewrite map_length; assumption).
              rewrite nth_error_app1 in Hbk by (rewrite map_length; assumption).
              rewrite nth_error_map' in Ha. rewrite nth_error_map' in Hbk. destruct (nth_error post k') as [x|] eqn:E'; [|discriminate].
              cbn in Ha, Hbk. inversion Ha; inversion Hbk; subst.
              destruct (Z.eqb_spec h' h) as [->|]; [exfalso; apply Hn2; eapply nth_error_In; eassumption|reflexivity].
           ++ rewrite nth_error_app2 in Ha by (rewrite map_length; assumption).
              rewrite nth_error_map' in Ha. destruct (nth_error scr _) as [x|] eqn:E'; [|discriminate].
              cbn in Ha. inversion Ha; subst. contradiction.
Qed.

Context {DT : Dflt T}.

(** Many tasks [xs], each updating tile [out x] of [D]: the old content [d] of the tile
    becomes [F x bs1 bs2 d] where bs1, bs2 are the contents of the inputs. *)
Theorem acc_runs {X} (D : tensor) (xs : list X) (out : X -> Z) (md : X -> mode)
    (pre post scr : X -> list handle) (body : X -> list (buf T) -> res (list (buf T)))
    (F : X -> list (buf T) -> list (buf T) -> list T -> list T) s r :
  wft D -> stored KF s D ->
  r = Ok (map (fun x => mkTask (mk_acc (pre x) (th D (out x)) (md x) (post x) (scr x)) (body x)) xs) ->
  (forall x, In x xs -> 0 <= out x < ntiles D) ->
  (forall x, In x xs -> md x = MW \/ md x = MRW) ->
  (forall x h, In x xs -> In h (pre x) \/ In h (post x) \/ In h (scr x) -> ~ In h (tile_handles D)) ->
  (forall x b1 b2 d d', In x xs -> md x = MW -> zlen d = zlen d' -> F x b1 b2 d = F x b1 b2 d') ->
  (forall x st d, In x xs -> tinv s st -> zlen d = tsz D (out x) ->
     zlen (F x (map st (pre x)) (map st (post x)) d) = tsz D (out x)) ->
  (forall x st d sc, In x xs -> tinv s st -> zlen d = tsz D (out x) ->
     map ty sc = map (fun h => ty (s h)) (scr x) ->
     exists sc', body x (map st (pre x) ++ BF d :: map st (post x) ++ sc) =
       Ok (map st (pre x) ++ BF (F x (map st (pre x)) (map st (post x)) d) :: map st (post x) ++ sc') /\
       List.length sc' = List.length (scr x)) ->
  runs r s (fun s' =>
    (forall i, 0 <= i < ntiles D ->
       s' (th D i) = BF (fold_left (fun d x => F x (map s (pre x)) (map s (post x)) d)
                          (filter (fun x => out x =? i) xs) (fl (s (th D i))))) /\
    frame [D] s s').
Proof.
  intros HD Hst -> Ho Hm Hsep Hw Hlen Hb.
  (* for write-only tasks the old value is replaced by the initial one *)
  set (old := fun x (st : store T) => match md x with MRW => fl (st (th D (out x))) | _ => fl (s (th D (out x))) end).
  set (G := fun x (st : store T) => BF (F x (map st (pre x)) (map st (post x)) (old x st))).
  set (ws := map (fun x => mkW (mk_acc (pre x) (th D (out x)) (md x) (post x) (scr x)) (body x) (th D (out x)) (G x)) xs).
  assert (Hs0 : forall i, 0 <= i < ntiles D -> exists l, s (th D i) = BF l /\ zlen l = tsz D i).
  { intros i Hi. apply ty_BF. apply Hst. assumption. }
  assert (Hold : forall x st, In x xs -> tinv s st -> zlen (old x st) = tsz D (out x)).
  { intros x st Hx Hti. unfold old. destruct (Hs0 _ (Ho x Hx)) as (l & El & Hl).
    assert (E : forall b : buf T, ty b = ty (s (th D (out x))) -> zlen (fl b) = tsz D (out x)).
    { intros b Hb'. rewrite El in Hb'. destruct b; inversion Hb'; subst. cbn. congruence. }
    destruct (md x); apply E; auto. }
  assert (Hok : forall w, In w ws -> w_ok s w).
  { intros w Hin. apply in_map_iff in Hin as (x & <- & Hx). apply w_ok_gen.
    - apply Hm, Hx.
    - intros Hi. apply (Hsep x (th D (out x)) Hx); [auto|]. apply th_In; auto.
    - intros Hi. apply (Hsep x (th D (out x)) Hx); [auto|]. apply th_In; auto.
    - intros Hi. apply (Hsep x (th D (out x)) Hx); [auto|]. apply th_In; auto.
    - intros s1 s2 H1 H2 H3. unfold G. f_equal. rewrite (map_ext_in s1 s2 (pre x)) by assumption.
      rewrite (map_ext_in s1 s2 (post x)) by assumption. f_equal. unfold old.
      destruct (md x); try reflexivity. rewrite H3; reflexivity.
    - intros st Hti. unfold G. destruct (Hs0 _ (Ho x Hx)) as (l & El & Hl). rewrite El. cbn [ty].
      rewrite Hlen; auto. congruence.
    - intros st b sc Hti Htb Hbb Hsc. destruct (Hs0 _ (Ho x Hx)) as (l & El & Hl).
      assert (exists d, b = BF d /\ zlen d = tsz D (out x)) as (d & -> & Hd).
      { rewrite El in Htb. destruct b; inversion Htb; subst. eexists. split; [reflexivity|congruence]. }
      destruct (Hb x st d sc Hx Hti Hd Hsc) as (sc' & E & Hlsc). exists sc'. split; [|assumption].
      rewrite E. unfold G. do 4 f_equal.
      destruct (Hm x Hx) as [Emd|Emd].
      + apply Hw; auto. rewrite Hold by assumption. assumption.
      + unfold old. rewrite Emd. rewrite <- Hbb by assumption. reflexivity. }
  eapply runs_weaken; [apply (one_runs s ws)|].
  - unfold ws. rewrite map_map. reflexivity.
  - assumption.
  - intros w w' m Hiw Hiw' Hin Hns. apply in_map_iff in Hiw as (x & <- & Hx). apply in_map_iff in Hiw' as (x' & <- & Hx').
    cbn [w_h w_acc] in *. unfold mk_acc in Hin. apply in_app_or in Hin as [Hin|[E|Hin]].
    + exfalso. apply in_map_iff in Hin as (y & E & Hy). inversion E; subst.
      apply (Hsep x (th D (out x')) Hx); [auto|]. apply th_In; auto.
    + inversion E; reflexivity.
    + exfalso. apply in_app_or in Hin as [Hin|Hin]; apply in_map_iff in Hin as (y & E & Hy); inversion E; subst;
        (apply (Hsep x (th D (out x')) Hx); [auto|]; apply th_In; auto).
  - intros s' Hti Hs'. split.
    + intros i Hi. rewrite Hs'. destruct (Hs0 i Hi) as (l & El & Hl).
      assert (Gen : forall ys d, incl ys xs -> zlen d = tsz D i ->
        w_fold (map (fun x => mkW (mk_acc (pre x) (th D (out x)) (md x) (post x) (scr x)) (body x) (th D (out x)) (G x)) ys)
          s (th D i) (BF d) =
        BF (fold_left (fun d x => F x (map s (pre x)) (map s (post x)) d) (filter (fun x => out x =? i) ys) d)).
      { induction ys as [|x ys IH]; intros d Hincl Hd; [reflexivity|].
        assert (Hx : In x xs) by (apply Hincl; left; reflexivity).
        assert (Hincl' : incl ys xs) by (intros y Hy; apply Hincl; right; assumption).
        unfold w_fold. cbn [map fold_left filter w_h w_F].
        destruct (Z.eqb_spec (out x) i) as [Eo|Eo].
        - rewrite Eo, Z.eqb_refl. cbn [fold_left].
          set (st := upd_store s (th D i) (BF d)).
          assert (Hst1 : forall h, In h (pre x) \/ In h (post x) -> st h = s h).
          { intros h Hh. unfold st, upd_store. destruct (Z.eqb_spec h (th D i)) as [->|]; [|reflexivity].
            exfalso. apply (Hsep x (th D i) Hx); [tauto|]. apply th_In; auto. }
          assert (EG : G x st = BF (F x (map s (pre x)) (map s (post x)) d)).
          { unfold G. rewrite (map_ext_in st s (pre x)) by auto. rewrite (map_ext_in st s (post x)) by auto.
            f_equal. destruct (Hm x Hx) as [Emd|Emd].
            - apply Hw; auto. unfold old. rewrite Emd, Eo, El. cbn. congruence.
            - f_equal. unfold old. rewrite Emd, Eo. unfold st, upd_store. rewrite Z.eqb_refl. reflexivity. }
          rewrite EG. apply (IH _ Hincl'). rewrite <- Eo. apply Hlen; auto.
          { apply tinv_refl. } { rewrite Eo; assumption. }
        - destruct (Z.eqb_spec (th D i) (th D (out x))) as [E|_].
          + exfalso. apply Eo. symmetry. apply (th_inj D); auto.
          + apply (IH _ Hincl' Hd). }
      rewrite El. cbn [fl]. apply Gen; [apply incl_refl|assumption].
    + intros h Hh. rewrite Hs'. apply w_fold_none. intros w Hin. apply in_map_iff in Hin as (x & <- & Hx). cbn [w_h].
      intros <-. apply (Hh D); [left; reflexivity|]. apply th_In; auto.
Qed.
End Acc.

Section AccElem.
Context {T : Type} {DT : Dflt T}.

(** The same, element by element: task [x] replaces the element at offset [o] of its tile, of
    value [v], by [G x bs1 bs2 o v]. *)
Theorem acc_elem {X} (D : tensor) (xs : list X) (out : X -> Z) (md : X -> mode)
    (pre post scr : X -> list handle) (body : X -> list (buf T) -> res (list (buf T)))
    (G : X -> list (buf T) -> list (buf T) -> Z -> T -> T) s r :
  wft D -> stored KF s D ->
  r = Ok (map (fun x => mkTask (mk_acc (pre x) (th D (out x)) (md x) (post x) (scr x)) (body x)) xs) ->
  (forall x, In x xs -> 0 <= out x < ntiles D) ->
  (forall x, In x xs -> md x = MW \/ md x = MRW) ->
  (forall x h, In x xs -> In h (pre x) \/ In h (post x) \/ In h (scr x) -> ~ In h (tile_handles D)) ->
  (forall x b1 b2 o v v', In x xs -> md x = MW -> G x b1 b2 o v = G x b1 b2 o v') ->
  (forall x st d sc, In x xs -> tinv s st -> zlen d = tsz D (out x) ->
     map ty sc = map (fun h => ty (s h)) (scr x) ->
     exists sc', body x (map st (pre x) ++ BF d :: map st (post x) ++ sc) =
       Ok (map st (pre x) ++ BF (ztab (tsz D (out x)) (fun o => G x (map st (pre x)) (map st (post x)) o (zn d o)))
             :: map st (post x) ++ sc') /\
       List.length sc' = List.length (scr x)) ->
  runs r s (fun s' =>
    (forall idx, inb (t_shape D) idx ->
       elem s' D idx = fold_left (fun v x => G x (map s (pre x)) (map s (post x)) (eoff D idx) v)
                          (filter (fun x => out x =? etile D idx) xs) (elem s D idx)) /\
    frame [D] s s').
Proof.
  intros HD Hst Hr Ho Hm Hsep Hw Hb.
  eapply runs_weaken; [apply (acc_runs D xs out md pre post scr body
    (fun x b1 b2 d => ztab (zlen d) (fun o => G x b1 b2 o (zn d o))) s r); auto|].
  - intros x b1 b2 d d' Hx Hmd Hl. rewrite Hl. apply ztab_ext. intros i _. apply Hw; assumption.
  - intros x st d Hx Hti Hd. rewrite zlen_ztab; [assumption|apply zlen_nonneg].
  - intros x st d sc Hx Hti Hd Hsc. destruct (Hb x st d sc Hx Hti Hd Hsc) as (sc' & E & Hl).
    exists sc'. rewrite Hd. split; assumption.
  - intros s' _ [H1 H2]. split; [|assumption]. intros idx Hi.
    pose proof (etile_bound D idx HD Hi) as Hi'. pose proof (eoff_bound D idx HD Hi) as Ho'.
    unfold elem. rewrite H1 by assumption. cbn [fl].
    destruct (ty_BF _ _ (Hst _ Hi')) as (l & El & Hl). rewrite El. cbn [fl].
    generalize (filter (fun x => out x =? etile D idx) xs). intros ys.
    assert (Gn : forall ys d, zlen d = tsz D (etile D idx) ->
      zn (fold_left (fun d x => ztab (zlen d) (fun o => G x (map s (pre x)) (map s (post x)) o (zn d o))) ys d) (eoff D idx)
      = fold_left (fun v x => G x (map s (pre x)) (map s (post x)) (eoff D idx) v) ys (zn d (eoff D idx))).
    { clear ys. induction ys as [|y ys IH]; intros d Hd; [reflexivity|]. cbn [fold_left]. rewrite IH.
      - rewrite zn_ztab by lia. reflexivity.
      - rewrite zlen_ztab; lia. }
    apply Gn. assumption.
Qed.

(** Each tile of D updated by exactly one task. *)
Lemma fold_single {A B} (f : A -> B -> A) l x a : l = [x] -> fold_left f l a = f a x.
Proof. intros ->. reflexivity. Qed.
End AccElem.
