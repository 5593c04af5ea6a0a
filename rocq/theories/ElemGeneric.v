(** * Generic theorem for element-wise operations on identically tiled tensors *)
From Verif Require Import Base Spec Geometry Traits TraitsProofs Runtime Ops TensorSem.

Lemma FOP_ztab {A} (R : A -> A -> Prop) n (f : Z -> A) :
  (forall i j, 0 <= i < n -> 0 <= j < n -> i <> j -> R (f i) (f j)) -> ForallOrdPairs R (ztab n f).
Proof.
  intros H. unfold ztab.
  assert (G : forall l, (forall x, In x l -> 0 <= x < n) -> NoDup l -> ForallOrdPairs R (map f l)).
  { induction l as [|x l IH]; intros Hl Hnd; simpl; constructor.
    - apply Forall_forall. intros y Hy. apply in_map_iff in Hy as (z & <- & Hz).
      inversion Hnd; subst. apply H; [apply Hl; left; reflexivity|apply Hl; right; assumption|].
      intros ->. contradiction.
    - inversion Hnd; subst. apply IH; [intros; apply Hl; right; assumption|assumption]. }
  apply G; [intros x Hx; apply zrange_In; assumption|apply NoDup_zrange].
Qed.

Lemma In_ztab {A} n (f : Z -> A) x : In x (ztab n f) <-> exists i, 0 <= i < n /\ x = f i.
Proof.
  unfold ztab. rewrite in_map_iff. split.
  - intros (i & <- & Hi). apply zrange_In in Hi. eauto.
  - intros (i & Hi & ->). exists i. split; [reflexivity|]. apply zrange_In. assumption.
Qed.

Lemma map_ztab {A B} (g : A -> B) n f : map g (ztab n f) = ztab n (fun i => g (f i)).
Proof. unfold ztab. apply map_map. Qed.

Lemma for_tasks {A} n (body : Z -> list A -> res (list A)) (f : Z -> A) :
  (forall i acc, 0 <= i < n -> body i acc = Ok (acc ++ [f i])) ->
  for_ 0 n body [] = Ok (ztab n f).
Proof.
  intros H. rewrite (for_append 0 n body (fun i => [f i])) by assumption.
  simpl. f_equal. unfold ztab. rewrite Z.sub_0_r. generalize (zrange n). clear.
  induction l; simpl; [reflexivity|]. rewrite IHl. reflexivity.
Qed.

(** A loop that rewrites each cell from its own previous value. *)
Lemma map_loop {T} `{Dflt T} n (f : Z -> T -> T) (body : Z -> list T -> res (list T)) d :
  zlen d = n ->
  (forall i s, 0 <= i < n -> zlen s = n -> body i s = wr s i (f i (zn s i))) ->
  for_ 0 n body d = Ok (ztab n (fun i => f i (zn d i))).
Proof.
  intros Hd Hb. pose proof (zlen_nonneg d).
  apply (pw_tab n (fun j => (0 <=? j) && (j <? n)) (fun j d => f j (d j))).
  - apply (pw_for n n (fun j => j) (fun j d => f j (d j)) body); [lia| |].
    + intros i Hi. apply (pw_wr n i (fun s => f i (zn s i))); [assumption|].
      intros s Hs. split; [apply Hb; assumption|reflexivity].
    + intros j g1 g2 Hj _ Hg. f_equal. apply Hg; auto.
  - assumption.
  - intros j Hj. apply andb_true_iff; split; [apply Z.leb_le|apply Z.ltb_lt]; lia.
Qed.

Section EW.
Context {T : Type} {D : Dflt T}.

(** One operand: tensor, access mode, and (if written) the formula of its new elements
    in terms of the old elements of all operands. *)
Definition operand : Type := (tensor * mode * (list T -> T))%type.
Definition pt (p : operand) : tensor := fst (fst p).
Definition pm (p : operand) : mode := snd (fst p).
Definition pf (p : operand) : list T -> T := snd p.

Fixpoint agree (ps : list operand) (v1 v2 : list T) : Prop :=
  match ps, v1, v2 with
  | p :: ps', a :: v1', b :: v2' => (reads (pm p) = true -> a = b) /\ agree ps' v1' v2'
  | [], [], [] => True
  | _, _, _ => False
  end.

Definition ew_out (ps : list operand) (n : Z) (ls : list (list T)) : list (list T) :=
  map2 (fun p l => if writes (pm p) then ztab n (fun i => pf p (map (fun l => zn l i) ls)) else l) ps ls.

Definition ew_task (ps : list operand) (body : list (buf T) -> res (list (buf T))) (i : Z) : task T :=
  mkTask (map (fun p => (th (pt p) i, pm p)) ps) body.

Definition ew_val (ps : list operand) (p : operand) (n i : Z) : store T -> buf T :=
  fun s => BF (ztab n (fun k => pf p (map (fun q => zn (fl (s (th (pt q) i))) k) ps))).

Definition ew_eff (ps0 ps : list operand) (n i : Z) : eff T :=
  flat_map (fun p => if writes (pm p) then [(th (pt p) i, ew_val ps0 p n i)] else []) ps.

Lemma ew_lookup_inv ps0 ps n i h f : elookup (ew_eff ps0 ps n i) h = Some f ->
  exists p, In p ps /\ writes (pm p) = true /\ h = th (pt p) i /\ f = ew_val ps0 p n i.
Proof.
  induction ps as [|p ps IH]; simpl; [discriminate|].
  destruct (writes (pm p)) eqn:Ew; simpl.
  - destruct (Z.eqb_spec h (th (pt p) i)) as [->|Hne].
    + intros [= <-]. exists p. auto.
    + intros E. destruct (IH E) as (q & ? & ? & ? & ?). exists q. auto.
  - intros E. destruct (IH E) as (q & ? & ? & ? & ?). exists q. auto.
Qed.

Variables (shape base : list Z) (ps : list operand) (s0 : store T).
Let grid := gridZ shape base.
Let NT := prodZ grid.

Variable body : Z -> list (buf T) -> res (list (buf T)).

Hypothesis Hwf : forall p, In p ps -> wft (pt p) /\ t_shape (pt p) = shape /\ t_base (pt p) = base.
Hypothesis Hst : forall p, In p ps -> stored KF s0 (pt p).
Hypothesis Hmode : forall p, In p ps -> pm p = MR \/ pm p = MW \/ pm p = MRW.
Hypothesis Hdis : ForallOrdPairs (fun p q => writes (pm p) || writes (pm q) = true -> disj (pt p) (pt q)) ps.
Hypothesis Hbody : forall n ls, 0 < n -> List.length ls = List.length ps -> Forall (fun l => zlen l = n) ls ->
  body n (map BF ls) = Ok (map BF (ew_out ps n ls)).
Hypothesis Hdep : forall p v1 v2, In p ps -> writes (pm p) = true -> agree ps v1 v2 -> pf p v1 = pf p v2.
Hypothesis Hne : ps <> [].

Definition tsz0 (i : Z) : Z := prodZ (tshape shape base (unoff grid i)).

Lemma ntiles_p p : In p ps -> ntiles (pt p) = NT.
Proof. intros Hp. destruct (Hwf p Hp) as (H & E1 & E2). unfold ntiles. rewrite E1, E2. reflexivity. Qed.
Lemma tsz_p p i : In p ps -> tsz (pt p) i = tsz0 i.
Proof. intros Hp. destruct (Hwf p Hp) as (H & E1 & E2). unfold tsz, tsh. rewrite E1, E2. reflexivity. Qed.

Lemma tsz0_pos i : 0 <= i < NT -> 0 < tsz0 i.
Proof.
  destruct ps as [|p ps'] eqn:E; [contradiction|]. assert (Hp : In p ps) by (rewrite E; left; reflexivity).
  rewrite <- E in *. intros Hi. rewrite <- (tsz_p p) by assumption. apply tsz_pos; [apply Hwf; assumption|].
  rewrite ntiles_p; assumption.
Qed.

(** distinct operands, one of them written, have distinct handles *)
Lemma lookup_w i p : 0 <= i < NT -> In p ps -> writes (pm p) = true ->
  elookup (ew_eff ps ps (tsz0 i) i) (th (pt p) i) = Some (ew_val ps p (tsz0 i) i).
Proof.
  intros Hi Hp Hw.
  assert (G : forall l, incl l ps -> ForallOrdPairs (fun p q => writes (pm p) || writes (pm q) = true -> disj (pt p) (pt q)) l ->
     In p l -> elookup (ew_eff ps l (tsz0 i) i) (th (pt p) i) = Some (ew_val ps p (tsz0 i) i)).
  { induction l as [|q l IH]; intros Hincl HF Hin; [destruct Hin|]. simpl.
    inversion HF as [|? ? Hq HF']; subst.
    destruct Hin as [->|Hin].
    - rewrite Hw. simpl. rewrite Z.eqb_refl. reflexivity.
    - assert (Hincl' : incl l ps) by (intros x Hx; apply Hincl; right; assumption).
      destruct (writes (pm q)) eqn:Ewq; simpl; [|apply IH; assumption].
      destruct (Z.eqb_spec (th (pt p) i) (th (pt q) i)) as [E|E]; [|apply IH; assumption].
      exfalso. rewrite Forall_forall in Hq. specialize (Hq p Hin). cbv beta in Hq. rewrite ?Ewq in Hq. specialize (Hq eq_refl).
      assert (Hqin : In q ps) by (apply Hincl; left; reflexivity).
      apply (th_neq (pt q) (pt p) i i); auto; try (rewrite ntiles_p by assumption; assumption);
        apply Hwf; assumption. }
  apply G; [apply incl_refl|assumption|assumption].
Qed.

Lemma lookup_r i p : 0 <= i < NT -> In p ps -> writes (pm p) = false ->
  elookup (ew_eff ps ps (tsz0 i) i) (th (pt p) i) = None.
Proof.
  intros Hi Hp Hw. destruct (elookup (ew_eff ps ps (tsz0 i) i) (th (pt p) i)) as [f|] eqn:E; [|reflexivity].
  exfalso. apply ew_lookup_inv in E as (q & Hq & Hwq & Eh & _).
  assert (Hd : disj (pt p) (pt q) \/ disj (pt q) (pt p)).
  { clear - Hdis Hp Hq Hw Hwq. induction Hdis as [|a l Ha Hl IH]; [destruct Hp|].
    rewrite Forall_forall in Ha. destruct Hp as [->|Hp], Hq as [->|Hq].
    - congruence.
    - left. apply Ha; [assumption|]. rewrite Hwq. apply orb_true_r.
    - right. apply Ha; [assumption|]. rewrite Hwq. reflexivity.
    - apply IH; assumption. }
  assert (Hd' : disj (pt p) (pt q)) by (destruct Hd; [assumption|apply disj_sym; assumption]).
  apply (th_neq (pt p) (pt q) i i); auto; try (rewrite ntiles_p by assumption; assumption); apply Hwf; assumption.
Qed.

Lemma map2_map_l {A B C} (g : A -> B -> C) (f : A -> B) l : map2 g l (map f l) = map (fun x => g x (f x)) l.
Proof. induction l; simpl; congruence. Qed.

Lemma ew_task_eff i : 0 <= i < NT -> task_eff (tinv s0) (ew_task ps (body (tsz0 i)) i) (ew_eff ps ps (tsz0 i) i).
Proof.
  intros Hi. pose proof (tsz0_pos i Hi) as Hn. apply mk_task_eff.
  - intros s hv Hs Hhv. unfold ew_task; cbn [t_body t_acc].
    set (ls := map (fun p => fl (in_buf s hv (th (pt p) i, pm p))) ps).
    assert (Hty : forall p, In p ps -> in_buf s hv (th (pt p) i, pm p) = BF (fl (in_buf s hv (th (pt p) i, pm p)))
                 /\ zlen (fl (in_buf s hv (th (pt p) i, pm p))) = tsz0 i).
    { intros p Hp. destruct (ty_BF (in_buf s hv (th (pt p) i, pm p)) (tsz0 i)) as (l & -> & El).
      - unfold in_buf; cbn [fst snd]. rewrite <- (tsz_p p) by assumption.
        rewrite <- (Hst p Hp i) by (rewrite ntiles_p; assumption).
        destruct (reads (pm p)); [apply Hs|rewrite Hhv; apply Hs].
      - simpl. auto. }
    rewrite map_map.
    rewrite (map_ext_in _ (fun p => BF (fl (in_buf s hv (th (pt p) i, pm p))))) by (intros p Hp; apply Hty; assumption).
    rewrite <- (map_map (fun p => fl (in_buf s hv (th (pt p) i, pm p))) BF). fold ls.
    exists (map BF (ew_out ps (tsz0 i) ls)). split; [|split].
    + apply Hbody; [assumption|unfold ls; rewrite map_length; reflexivity|].
      apply Forall_forall. intros l Hl. unfold ls in Hl. apply in_map_iff in Hl as (p & <- & Hp). apply Hty; assumption.
    + unfold ew_out. rewrite !map_length. apply map2_length. unfold ls. rewrite map_length. reflexivity.
    + intros k h m b Ha Hb Hm. rewrite nth_error_map in Ha.
      unfold ew_out, ls in Hb. rewrite map2_map_l in Hb. fold ls in Hb. rewrite !nth_error_map in Hb.
      destruct (nth_error ps k) as [p|] eqn:Ek; [|discriminate]. simpl in Ha, Hb.
      injection Ha as <- <-. injection Hb as <-.
      assert (Hp : In p ps) by (eapply nth_error_In; eassumption).
      unfold app_eff. destruct (writes (pm p)) eqn:Ew.
      * rewrite lookup_w by assumption. unfold ew_val. f_equal. apply ztab_ext. intros j Hj.
        apply Hdep; auto. unfold ls. rewrite map_map.
        clear. induction ps as [|q l IH]; simpl; [exact I|]. split; [|exact IH].
        intros Hr. unfold in_buf; cbn [fst snd]. rewrite Hr. reflexivity.
      * rewrite lookup_r by assumption.
        assert (Hr : reads (pm p) = true) by (destruct (Hmode p Hp) as [Em|[Em|Em]]; rewrite Em in *; simpl in *; congruence).
        destruct (Hty p Hp) as [E _]. rewrite <- E. unfold in_buf; cbn [fst snd]. rewrite Hr. reflexivity.
  - intros h f E. apply ew_lookup_inv in E as (p & Hp & Hw & -> & ->). exists (pm p). split; [|assumption].
    unfold ew_task; cbn [t_acc]. apply in_map_iff. exists p. auto.
  - intros h f s1 s2 E Hag. apply ew_lookup_inv in E as (p & Hp & Hw & -> & ->). unfold ew_val. f_equal.
    apply ztab_ext. intros j Hj. apply Hdep; auto.
    assert (Hag' : forall q, In q ps -> reads (pm q) = true -> s1 (th (pt q) i) = s2 (th (pt q) i)).
    { intros q Hq Hr. apply (Hag _ (pm q)); [|assumption]. apply in_map_iff. exists q. auto. }
    clear - Hag'. induction ps as [|q l IH]; simpl; [exact I|]. split.
    + intros Hr. rewrite (Hag' q) by (auto; left; reflexivity). reflexivity.
    + apply IH. intros; apply Hag'; [right|]; assumption.
  - intros h m Hin Hw. unfold ew_task in Hin; cbn [t_acc] in Hin. apply in_map_iff in Hin as (p & E & Hp).
    inversion E; subst. rewrite lookup_w by assumption. discriminate.
  - apply tinv_app. intros h f s E Hs. apply ew_lookup_inv in E as (p & Hp & Hw & -> & ->).
    unfold ew_val. simpl. rewrite zlen_ztab by lia. rewrite (Hst p Hp i) by (rewrite ntiles_p; assumption).
    rewrite tsz_p by assumption. reflexivity.
Qed.

Lemma ew_detlist : detlist (tinv s0) (ztab NT (fun i => (ew_task ps (body (tsz0 i)) i, ew_eff ps ps (tsz0 i) i))).
Proof.
  apply detlist_no_comm.
  - intros p Hp. apply In_ztab in Hp as (i & Hi & ->). apply ew_task_eff; assumption.
  - intros p h m Hp Hin. apply In_ztab in Hp as (i & Hi & ->). cbn [fst t_acc ew_task] in Hin.
    apply in_map_iff in Hin as (q & E & Hq). inversion E; subst.
    destruct (Hmode q Hq) as [->|[->| ->]]; split; discriminate.
Qed.

Lemma disj_pq p q : In p ps -> In q ps -> writes (pm p) = true -> p = q \/ disj (pt p) (pt q).
Proof.
  intros Hp Hq Hw. clear - Hdis Hp Hq Hw. induction Hdis as [|a l Ha Hl IH]; [destruct Hp|].
  rewrite Forall_forall in Ha. destruct Hp as [->|Hp], Hq as [->|Hq].
  - left; reflexivity.
  - right. apply Ha; [assumption|]. rewrite Hw. reflexivity.
  - right. apply disj_sym, Ha; [assumption|]. rewrite Hw. apply orb_true_r.
  - apply IH; assumption.
Qed.

Lemma th_sep p q i j : In p ps -> In q ps -> writes (pm p) = true -> 0 <= i < NT -> 0 <= j < NT -> i <> j ->
  th (pt p) i <> th (pt q) j.
Proof.
  intros Hp Hq Hw Hi Hj Hne'. destruct (disj_pq p q Hp Hq Hw) as [<-|Hd].
  - intros E. apply Hne'. apply (th_inj (pt p)); auto; try (rewrite ntiles_p by assumption; assumption). apply Hwf; assumption.
  - apply th_neq; auto; try (rewrite ntiles_p by assumption; assumption); apply Hwf; assumption.
Qed.

Lemma ew_indep i j : 0 <= i < NT -> 0 <= j < NT -> i <> j ->
  indep (ew_eff ps ps (tsz0 i) i) (ew_eff ps ps (tsz0 j) j).
Proof.
  intros Hi Hj Hij. split.
  - intros h f E. apply ew_lookup_inv in E as (p & Hp & Hw & -> & ->).
    destruct (elookup (ew_eff ps ps (tsz0 j) j) (th (pt p) i)) as [f'|] eqn:E'; [|reflexivity].
    exfalso. apply ew_lookup_inv in E' as (q & Hq & Hwq & E & _). revert E. apply th_sep; auto.
  - intros h f s E. apply ew_lookup_inv in E as (p & Hp & Hw & -> & ->). unfold ew_val. f_equal.
    apply ztab_ext. intros k Hk. f_equal. apply map_ext_in. intros q Hq. f_equal. f_equal.
    unfold app_eff. destruct (elookup (ew_eff ps ps (tsz0 i) i) (th (pt q) j)) as [f'|] eqn:E'; [|reflexivity].
    exfalso. apply ew_lookup_inv in E' as (r & Hr & Hwr & E & _). symmetry in E. revert E. apply th_sep; auto.
Qed.

Theorem ew_always :
  always (ztab NT (fun i => ew_task ps (body (tsz0 i)) i)) s0 (fun s' =>
    (forall p, In p ps -> writes (pm p) = true -> forall idx, inb shape idx ->
       elem s' (pt p) idx = pf p (map (fun q => elem s0 (pt q) idx) ps)) /\
    frame (map pt (filter (fun p => writes (pm p)) ps)) s0 s' /\
    tinv s0 s').
Proof.
  pose proof ew_detlist as Hdl.
  pose proof (schedule_independence (tinv s0) _ s0 (tinv_ext s0) Hdl (tinv_refl s0)) as Ha.
  rewrite !map_ztab in Ha. cbn [fst snd] in Ha.
  eapply always_weaken; [exact Ha|]. intros s' Hs'. cbv beta in Hs'. split; [|split].
  - intros p Hp Hw idx Hidx. destruct (Hwf p Hp) as (Hwp & Es & Eb).
    assert (Hidx' : inb (t_shape (pt p)) idx) by (rewrite Es; assumption).
    pose proof (etile_bound _ _ Hwp Hidx') as Hi. rewrite ntiles_p in Hi by assumption.
    pose proof (eoff_bound _ _ Hwp Hidx') as Ho. rewrite tsz_p in Ho by assumption.
    unfold elem at 1. set (i := etile (pt p) idx) in *.
    rewrite Hs'. rewrite (seq_indep _ s0 (ew_eff ps ps (tsz0 i) i) _ (ew_val ps p (tsz0 i) i)).
    + unfold ew_val. simpl fl. rewrite zn_ztab by assumption. f_equal.
      apply map_ext_in. intros q Hq. destruct (Hwf q Hq) as (Hwq & Es' & Eb').
      unfold elem. rewrite (etile_ext (pt q) (pt p)), (eoff_ext (pt q) (pt p)) by congruence. reflexivity.
    + apply FOP_ztab. intros; apply ew_indep; assumption.
    + apply In_ztab. eauto.
    + apply lookup_w; assumption.
  - intros h Hh. rewrite Hs'. apply seq_frame. intros e He. apply In_ztab in He as (i & Hi & ->).
    destruct (elookup (ew_eff ps ps (tsz0 i) i) h) as [f|] eqn:E; [|reflexivity].
    exfalso. apply ew_lookup_inv in E as (p & Hp & Hw & -> & _).
    apply (Hh (pt p)); [apply in_map, filter_In; auto|]. apply th_In; [apply Hwf; assumption|].
    rewrite ntiles_p; assumption.
  - intros h. rewrite Hs'. revert h. change (tinv s0 (seq_eff (ztab NT (fun i => ew_eff ps ps (tsz0 i) i)) s0)).
    apply (seq_eff_inv (tinv s0) (ztab NT (fun i => ew_task ps (body (tsz0 i)) i))); [|apply tinv_refl].
    unfold ztab. assert (G : forall i, In i (zrange NT) -> 0 <= i < NT) by (intros; apply zrange_In; assumption).
    revert G. generalize (zrange NT). induction l; intros G; simpl; constructor.
    + apply ew_task_eff, G; left; reflexivity.
    + apply IHl. intros; apply G; right; assumption.
Qed.

Theorem ew_sound : Forall (sound_task (tinv s0)) (ztab NT (fun i => ew_task ps (body (tsz0 i)) i)).
Proof.
  apply Forall_forall. intros t Ht. apply In_ztab in Ht as (i & Hi & ->).
  eapply task_eff_sound; [apply tinv_ext|]. apply ew_task_eff; assumption.
Qed.
Theorem ew_ordered : Forall ordered_task (ztab NT (fun i => ew_task ps (body (tsz0 i)) i)).
Proof.
  apply Forall_forall. intros t Ht h m Hin. apply In_ztab in Ht as (i & Hi & ->). cbn [t_acc ew_task] in Hin.
  apply in_map_iff in Hin as (q & E & Hq). inversion E; subst.
  destruct (Hmode q Hq) as [->|[->| ->]]; split; discriminate.
Qed.

End EW.
