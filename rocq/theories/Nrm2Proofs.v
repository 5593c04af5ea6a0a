(** * nrm2 (any scalar operations) *)
From Verif Require Import Base Spec Geometry Traits TraitsProofs Runtime Ops TensorSem ElemGeneric OneOut
  KernelsElem ElemOps Formulas Axis AccRuns Loops SliceOps SliceGeo SliceProofs SliceReduce Sequence MatOps.

Section Single.
Context {T : Type}.
(** One task that reads [rd] and updates [h]. *)
Lemma single_runs s0 (rd : list handle) h m (body : list (buf T) -> res (list (buf T))) F :
  m = MW \/ m = MRW -> ~ In h rd ->
  (forall s1 s2, (forall x, In x rd -> s1 x = s2 x) -> (m = MRW -> s1 h = s2 h) -> F s1 = F s2) ->
  (forall s, tinv s0 s -> ty (F s) = ty (s0 h)) ->
  (forall s b, tinv s0 s -> ty b = ty (s0 h) -> (m = MRW -> b = s h) ->
     body (map s rd ++ [b]) = Ok (map s rd ++ [F s])) ->
  runs (Ok [mkTask (map (fun x => (x, MR)) rd ++ [(h, m)]) body]) s0 (fun s' =>
    s' h = F s0 /\ forall h', h' <> h -> s' h' = s0 h').
Proof.
  intros Hm Hn H1 H2 H3. set (w := mkW (map (fun x => (x, MR)) rd ++ [(h, m)]) body h F).
  assert (Hw : w_ok s0 w) by (apply w_ok_last; assumption).
  eapply runs_weaken; [apply (one_runs_unique s0 [w] (Ok [w_task w]) eq_refl)|].
  - intros w' [<-|[]]. assumption.
  - intros w1 w2 m' [<-|[]] [<-|[]] _ _. reflexivity.
  - constructor; [intros []|constructor].
  - intros s' _ [E1 E2]. split; [apply (E1 w); left; reflexivity|]. intros h' Hne. apply E2.
    intros w' [<-|[]]. cbn. congruence.
Qed.

(** Groups of tasks submitted by a loop. *)
Lemma runs_groups (f : Z -> list (task T)) n (Inv : Z -> store T -> Prop) s : 0 <= n -> Inv 0 s ->
  (forall i s1, 0 <= i < n -> tinv s s1 -> Inv i s1 -> runs (Ok (f i)) s1 (Inv (i + 1))) ->
  runs (Ok (flat_map f (zrange n))) s (Inv n).
Proof.
  intros Hn H0 Hs.
  assert (G : forall k, 0 <= k -> k <= n -> runs (Ok (flat_map f (zrange k))) s (Inv k)).
  { intros k0 Hk0. pattern k0. apply natlike_ind; [| |assumption].
    - intros _. apply nop_runs. assumption.
    - intros k Hk IH Hkn. unfold Z.succ. rewrite zrange_succ by assumption. rewrite flat_map_app. cbn [flat_map].
      rewrite app_nil_r.
      change (runs (then_ (Ok (flat_map f (zrange k))) (Ok (f k))) s (Inv (k + 1))).
      eapply runs_then; [apply IH; lia|]. intros s1 Ht HI. apply Hs; [lia|assumption..]. }
  apply G; lia.
Qed.
End Single.

(** The tile grid tensor of partial norms. *)
Definition nrm2_match (src dst tmp : tensor) : Prop :=
  t_shape dst = [] /\ t_shape tmp = gridZ (t_shape src) (t_base src) /\ Forall (fun b => b = 1) (t_base tmp).

Lemma Forall_zn (P : Z -> Prop) l : Forall P l <-> (forall i, 0 <= i < zlen l -> P (zn l i)).
Proof.
  split.
  - intros H i Hi. rewrite Forall_forall in H. apply H. unfold zn. apply nth_In. unfold zlen in Hi. lia.
  - induction l as [|x l IH]; intros H; constructor.
    + apply (H 0). rewrite zlen_cons. pose proof (zlen_nonneg l). lia.
    + apply IH. intros i Hi. specialize (H (i + 1)). rewrite zn_consS in H by lia. replace (i + 1 - 1) with i in H by ring.
      apply H. rewrite zlen_cons. lia.
Qed.

Lemma nrm2_checks src dst tmp : wft src -> wft dst -> wft tmp -> checks (nrm2_match src dst tmp) (nrm2_check src dst tmp).
Proof.
  intros Hs Hd Ht. unfold nrm2_check. rewrite !t_ndim_eq by assumption. rewrite t_grid_eq by assumption.
  pose proof (wf_len _ Hs) as Ls. pose proof (wf_len _ Ht) as Lt.
  apply (checks_iff (zlen (t_shape dst) = 0 /\ zlen (t_shape src) = zlen (t_shape tmp) /\
    t_shape tmp = gridZ (t_shape src) (t_base src) /\ forall i, 0 <= i < zlen (t_shape src) -> zn (t_base tmp) i = 1)).
  - unfold nrm2_match. split.
    + intros (E0 & E1 & E2 & E3). split; [|split; [assumption|]].
      * destruct (t_shape dst); [reflexivity|]. rewrite zlen_cons in E0. pose proof (zlen_nonneg l). lia.
      * apply Forall_zn. intros i Hi. apply E3. lia.
    + intros (-> & E1 & E2). split; [reflexivity|]. assert (El : zlen (t_shape src) = zlen (t_shape tmp)).
      { rewrite E1. unfold zlen. rewrite gridZ_length by (apply wf_len'; assumption). reflexivity. }
      split; [assumption|]. split; [assumption|]. intros i Hi. rewrite Forall_zn in E2. apply E2. lia.
  - apply checks_eq. intros E0. apply checks_eq. intros E1. apply list_eqb_checks. intros E2.
    apply checks_for. intros i Hi. cbv beta. rewrite rd_ok' by lia.
    eapply checks_iff; [|apply (checks_eq _ 1 _ True); intros; apply checks_ok]. tauto.
Qed.

Lemma grid_ones sh ba : Forall (fun b => b = 1) ba -> List.length sh = List.length ba -> gridZ sh ba = sh.
Proof.
  intros H. revert sh. induction H as [|b ba -> H IH]; intros [|s sh] Hl; try discriminate; [reflexivity|].
  cbn in Hl. unfold gridZ, map2 in *. cbn [combine map]. f_equal; [rewrite Z.div_1_r; ring|]. apply IH. lia.
Qed.
Lemma tshape_ones sh ba i : Forall (fun b => b = 1) ba -> List.length sh = List.length ba -> inb sh i ->
  prodZ (tshape sh ba i) = 1.
Proof.
  intros H. revert sh i. induction H as [|b ba -> H IH]; intros [|s sh] i Hl Hi; try discriminate; inversion Hi; subst; [reflexivity|].
  cbn [tshape prodZ]. rewrite IH; [|cbn in Hl; lia|assumption]. lia.
Qed.
Lemma tmp_tiles src dst tmp : wft src -> wft tmp -> nrm2_match src dst tmp ->
  ntiles tmp = ntiles src /\ forall i, 0 <= i < ntiles src -> tsz tmp i = 1.
Proof.
  intros Hs Ht (E0 & E1 & E2). pose proof (wf_len _ Ht) as Lt. assert (Ln : List.length (t_shape tmp) = List.length (t_base tmp)) by (apply wf_len'; assumption).
  assert (En : ntiles tmp = ntiles src) by (unfold ntiles; rewrite grid_ones by assumption; rewrite E1; reflexivity).
  split; [assumption|]. intros i Hi. unfold tsz, tsh. apply tshape_ones; [assumption..|].
  rewrite (grid_ones (t_shape tmp) (t_base tmp)) by assumption. apply unoff_inb; [apply wf_ps; assumption|].
  rewrite E1. exact Hi.
Qed.

Section Nrm2.
Context {T : Type} {O : Ops T}.
Local Notation vec := (list T).

(** Sum of squares of tile i of src. *)
Definition ssq (s : store T) (src : tensor) (i : Z) : T :=
  fold_left (fun acc o => o_add acc (o_mul (elem s src (eidx src i o)) (elem s src (eidx src i o)))) (zrange (tsz src i)) o_zero.
Definition ssqv (l : vec) (n : Z) : T := fold_left (fun acc o => o_add acc (o_mul (zn l o) (zn l o))) (zrange n) o_zero.

Lemma k_nrm2_ok n (src dst : vec) : 0 <= n -> zlen src = n -> zlen dst = 1 ->
  k_nrm2 n src dst = Ok [o_sqrt (ssqv src n)].
Proof.
  intros Hn Hs Hd. unfold k_nrm2.
  rewrite (for_ext 0 n _ (fun i acc => Ok (o_add acc (o_mul (zn src i) (zn src i))))).
  - rewrite for_pure, Z.sub_0_r. bnd. destruct dst as [|d [|d2 dst]]; try discriminate.
    + reflexivity.
    + rewrite !zlen_cons in Hd. pose proof (zlen_nonneg dst). lia.
  - intros i acc Hi. rewrite rd_ok' by lia. reflexivity.
Qed.

Lemma k_hypot_1 alpha (src : vec) beta (dst : vec) : zlen src = 1 -> zlen dst = 1 ->
  k_hypot 1 alpha src beta dst = Ok [f_hypot alpha (zn src 0) beta (zn dst 0)].
Proof.
  intros Hs Hd. destruct dst as [|d [|d2 dst]]; try discriminate; [|rewrite !zlen_cons in Hd; pose proof (zlen_nonneg dst); lia].
  destruct src as [|x [|x2 src]]; try discriminate; [|rewrite !zlen_cons in Hs; pose proof (zlen_nonneg src); lia].
  unfold k_hypot, f_hypot. destruct (o_eqb alpha o_zero), (o_eqb beta o_zero); reflexivity.
Qed.

Variables (src dst tmp : tensor).
Hypothesis (Hs : wft src) (Hd : wft dst) (Ht : wft tmp).

Definition nrm2_group (alpha beta : T) (i : Z) : list (task T) :=
  [nrm2_submit (tsz src i) (th src i) (th tmp i); hypot_submit 1 alpha (th tmp i) (bj beta i) (th dst 0)].

Lemma nrm2_tasks alpha beta : nrm2_match src dst tmp ->
  nrm2_async alpha src beta dst tmp = Ok (flat_map (nrm2_group alpha beta) (zrange (ntiles src))).
Proof.
  intros Hm. destruct (tmp_tiles src dst tmp Hs Ht Hm) as [En _]. unfold nrm2_async.
  rewrite (checks_true _ _ (nrm2_checks src dst tmp Hs Hd Ht) Hm). bnd.
  assert (Nd : 0 <= 0 < ntiles dst) by (unfold ntiles; destruct Hm as (-> & _); cbn; lia).
  rewrite get_tile_handle_ok by assumption. bnd. rewrite t_ntiles_eq by assumption.
  rewrite (for_flat (ntiles src) _ (nrm2_group alpha beta)); [reflexivity|].
  intros i acc Hi. rewrite get_tile_handle_ok by assumption. bnd. rewrite get_tile_traits_ok by assumption. bnd.
  rewrite get_tile_handle_ok by (assumption || lia). bnd. reflexivity.
Qed.

Lemma hyp_W (beta : T) : (if o_eqb beta o_one then MRW else if o_eqb beta o_zero then MW else MRW) = MW -> o_eqb beta o_zero = true.
Proof. destruct (o_eqb beta o_one); [discriminate|]. destruct (o_eqb beta o_zero); [reflexivity|discriminate]. Qed.

Theorem nrm2_runs alpha beta s : nrm2_match src dst tmp -> disj src dst -> disj src tmp -> disj tmp dst ->
  stored KF s src -> stored KF s dst -> stored KF s tmp ->
  runs (nrm2_async alpha src beta dst tmp) s (fun s' =>
    elem s' dst [] = fold_left (fun v i => f_hypot alpha (o_sqrt (ssq s src i)) (bj beta i) v) (zrange (ntiles src)) (elem s dst []) /\
    (forall idx, inb (t_shape tmp) idx -> elem s' tmp idx = o_sqrt (ssq s src (etile tmp idx))) /\
    frame [dst; tmp] s s').
Proof.
  intros Hm Dsd Dst Dtd S1 S2 S3. destruct (tmp_tiles src dst tmp Hs Ht Hm) as [En Ez].
  rewrite nrm2_tasks by assumption.
  assert (Nd : 0 <= 0 < ntiles dst) by (unfold ntiles; destruct Hm as (-> & _); cbn; lia).
  assert (Zd : tsz dst 0 = 1) by (unfold tsz, tsh; destruct Hm as (-> & _); destruct (t_base dst); reflexivity).
  assert (Vs : forall i, 0 <= i < ntiles src -> ssqv (fl (s (th src i))) (tsz src i) = ssq s src i).
  { intros i Hi. unfold ssqv, ssq. apply fold_left_ext. intros a o Ho. apply zrange_In in Ho.
    destruct (eidx_spec src i o Hs Hi Ho) as (I1 & I2 & I3). unfold elem. rewrite I2, I3. reflexivity. }
  eapply runs_weaken; [apply (runs_groups (nrm2_group alpha beta) (ntiles src) (fun k s1 =>
    s1 (th dst 0) = BF [fold_left (fun v i => f_hypot alpha (o_sqrt (ssq s src i)) (bj beta i) v) (zrange k) (elem s dst [])] /\
    (forall i, 0 <= i < k -> s1 (th tmp i) = BF [o_sqrt (ssq s src i)]) /\
    frame [dst; tmp] s s1))|].
  - unfold ntiles. apply Z.lt_le_incl, prodZ_pos. apply wf_pg. assumption.
  - split; [|split; [intros; lia|intros h _; reflexivity]].
    pose proof (S2 0 Nd) as T2. apply ty_BF in T2 as (l & El & Ll). rewrite Zd in Ll.
    destruct l as [|x [|x2 l]]; try discriminate; [|rewrite !zlen_cons in Ll; pose proof (zlen_nonneg l); lia].
    rewrite El. cbn [zrange fold_left]. f_equal. f_equal. unfold elem, etile, eoff. destruct Hm as (-> & _).
    destruct (t_base dst); cbn [off gridZ tile_of in_tile map2 combine map tshape]; rewrite ?El; reflexivity.
  - intros i s1 Hi Ht1 (J1 & J2 & J3). change (nrm2_group alpha beta i) with
      ([nrm2_submit (tsz src i) (th src i) (th tmp i)] ++ [hypot_submit 1 alpha (th tmp i) (bj beta i) (th dst 0)] : list (task T)).
    change (runs (then_ (Ok [nrm2_submit (tsz src i) (th src i) (th tmp i)]) (Ok [hypot_submit 1 alpha (th tmp i) (bj beta i) (th dst 0)])) s1
      (fun s2 => s2 (th dst 0) = BF [fold_left (fun v i => f_hypot alpha (o_sqrt (ssq s src i)) (bj beta i) v) (zrange (i + 1)) (elem s dst [])] /\
        (forall k, 0 <= k < i + 1 -> s2 (th tmp k) = BF [o_sqrt (ssq s src k)]) /\ frame [dst; tmp] s s2)).
    assert (Hit : 0 <= i < ntiles tmp) by lia.
    assert (Nst : th src i <> th tmp i).
    { intros E. apply (Dst (th src i)); [apply th_In; assumption|rewrite E; apply th_In; assumption]. }
    assert (Ntd : forall k, 0 <= k < ntiles tmp -> th tmp k <> th dst 0).
    { intros k Hk E. apply (Dtd (th tmp k)); [apply th_In; assumption|rewrite E; apply th_In; assumption]. }
    assert (Es : s1 (th src i) = s (th src i)).
    { apply J3. intros t [<-|[<-|[]]] Hin; [apply (Dsd (th src i))|apply (Dst (th src i))]; auto; apply th_In; assumption. }
    pose proof (buf_at s s1 KF tmp i Ht1 S3 Hit) as Tt. rewrite Ez in Tt by assumption.
    pose proof (buf_at s s1 KF dst 0 Ht1 S2 Nd) as Td. rewrite Zd in Td.
    pose proof (buf_at s s1 KF src i Ht1 S1 Hi) as Ts.
    eapply runs_then.
    { apply (single_runs s1 [th src i] (th tmp i) MW (wrap2 (k_nrm2 (tsz src i)))
        (fun st => BF [o_sqrt (ssqv (fl (st (th src i))) (tsz src i))])).
      - auto.
      - intros [E|[]]. congruence.
      - intros x1 x2 H _. rewrite (H (th src i)) by (left; reflexivity). reflexivity.
      - intros st _. cbn. rewrite Tt. reflexivity.
      - intros st b Hst Tb _. rewrite Tt in Tb. apply ty_BF in Tb as (d & -> & Ld).
        assert (T' : ty (st (th src i)) = (KF, tsz src i)) by (rewrite Hst; assumption).
        apply ty_BF in T' as (l & El & Ll). cbn [map app]. rewrite El. cbn [wrap2 fl].
        pose proof (tsz_pos src i Hs Hi). rewrite k_nrm2_ok by (assumption || lia). reflexivity. }
    intros s2 Ht2 (K1 & K2). rewrite Es in K1. rewrite Vs in K1 by assumption.
    eapply runs_weaken; [apply (single_runs s2 [th tmp i] (th dst 0)
        (if o_eqb (bj beta i) o_one then MRW else if o_eqb (bj beta i) o_zero then MW else MRW)
        (wrap2 (fun a d => k_hypot 1 alpha a (bj beta i) d))
        (fun st => BF [f_hypot alpha (zn (fl (st (th tmp i))) 0) (bj beta i) (zn (fl (st (th dst 0))) 0)]))|].
    + destruct (o_eqb (bj beta i) o_one), (o_eqb (bj beta i) o_zero); auto.
    + intros [E|[]]. apply (Ntd i Hit). assumption.
    + intros x1 x2 H1 H2. rewrite (H1 (th tmp i)) by (left; reflexivity).
      destruct (if o_eqb (bj beta i) o_one then MRW else if o_eqb (bj beta i) o_zero then MW else MRW) eqn:Em;
        try (rewrite H2 by reflexivity; reflexivity);
        try (destruct (o_eqb (bj beta i) o_one), (o_eqb (bj beta i) o_zero); discriminate).
      apply hyp_W in Em. unfold f_hypot. rewrite Em. reflexivity.
    + intros st _. cbn. rewrite (Ht2 (th dst 0)), Td. reflexivity.
    + intros st b Hst Tb Hb. rewrite (Ht2 (th dst 0)), Td in Tb. apply ty_BF in Tb as (d & Eb & Ld). subst b.
      assert (T' : ty (st (th tmp i)) = (KF, 1)) by (rewrite Hst, Ht2; assumption).
      apply ty_BF in T' as (l & El & Ll). cbn [map app]. rewrite El. cbn [wrap2 fl].
      rewrite k_hypot_1 by assumption. bnd. do 3 f_equal. f_equal. f_equal.
      destruct (if o_eqb (bj beta i) o_one then MRW else if o_eqb (bj beta i) o_zero then MW else MRW) eqn:Em;
        try (rewrite <- Hb by reflexivity; reflexivity);
        try (destruct (o_eqb (bj beta i) o_one), (o_eqb (bj beta i) o_zero); discriminate).
      apply hyp_W in Em. unfold f_hypot. rewrite Em. reflexivity.
    + intros s3 Ht3 (L1 & L2). split; [|split].
      * rewrite L1, K1. rewrite K2 by (intros E; apply (Ntd i Hit); congruence). rewrite J1.
        rewrite zrange_succ by lia. rewrite fold_left_app. reflexivity.
      * intros k Hk. rewrite L2 by (apply Ntd; lia). destruct (Z.eq_dec k i) as [->|Hne]; [assumption|].
        rewrite K2; [apply J2; lia|]. intros E. apply Hne. eapply (th_inj tmp); eauto; lia.
      * intros h Hh. rewrite L2, K2.
        -- apply J3. assumption.
        -- intros ->. apply (Hh tmp); [right; left; reflexivity|apply th_In; assumption].
        -- intros ->. apply (Hh dst); [left; reflexivity|apply th_In; assumption].
  - intros s' _ (J1 & J2 & J3). split; [|split; [|assumption]].
    + unfold elem at 1. assert (E0 : etile dst [] = 0 /\ eoff dst [] = 0).
      { unfold etile, eoff. destruct Hm as (-> & _). destruct (t_base dst); split; reflexivity. }
      destruct E0 as [-> ->]. rewrite J1. reflexivity.
    + intros idx Hi. pose proof (etile_bound tmp idx Ht Hi) as Bt. pose proof (eoff_bound tmp idx Ht Hi) as Bo.
      rewrite En in Bt. rewrite Ez in Bo by assumption. unfold elem. rewrite J2 by assumption.
      replace (eoff tmp idx) with 0 by lia. reflexivity.
Qed.
End Nrm2.
