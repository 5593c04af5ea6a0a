(** * C67: exchange of data with numpy (from_array / to_array) *)
From Verif Require Import Base Spec Geometry Traits TraitsProofs Axis Loops Runtime Ops TensorSem KernelsElem ElemOps ElemGeneric ElemProofs OneOut AccRuns
  Sequence Serial NdRuns Concrete SubcopyOps SubcopyKernel ScatterRuns TileCopy TileOps TileProofs PropCopy NumpyIO.
Local Open Scope Z_scope.

Section Np.
Context {T : Type} {DT : Dflt T}.

(** ** Specification.  Element of a numpy array at a multi-index, in the column-major memory; the
    array of a 0-dimensional tensor has the shape (1,) and the index 0. *)
Definition acell (s : store T) (a : ndarray) (idx : list Z) : T := zn (fl (s (a_mem a))) (off (a_shape a) idx).
Definition aidx (idx : list Z) : list Z := match idx with [] => [0] | _ => idx end.
Definition ashape (sh : list Z) : list Z := match sh with [] => [1] | _ => sh end.
(** the memory of an array of floating-point numbers *)
Definition anew (s : store T) (a : ndarray) : Prop := ty (s (a_mem a)) = (KF, prodZ (a_shape a)).

Definition mk1 (shape : list Z) (h : handle) : tile := (tt_of shape, h).
Lemma mk1_wf shape h : pos shape -> wf_tile (mk1 shape h).
Proof. intros H. apply TileTraits_new_ok. assumption. Qed.

(** ** One blocking copy *)
Lemma memcpy_n_ok {A} n (x d : list A) : zlen x = n -> zlen d = n -> memcpy_n n x d = Ok x.
Proof.
  intros Hx Hd. unfold memcpy_n. rewrite Hx, Hd, Z.leb_refl. pose proof (zlen_nonneg x).
  destruct (Z.leb_spec 0 n); [|lia]. cbn [andb]. f_equal.
  rewrite firstn_all2, skipn_all2 by (unfold zlen in *; lia). apply app_nil_r.
Qed.

Lemma host_runs h1 h2 n m (s : store T) : 0 < n -> h1 <> h2 -> m = MW \/ m = MRW ->
  ty (s h1) = (KF, n) -> ty (s h2) = (KF, n) ->
  runs (Ok [mkTask [(h1, MR); (h2, m)] (host_cpu n)]) s (fun s' => fl (s' h2) = fl (s h1) /\ forall h, h <> h2 -> s' h = s h).
Proof.
  intros Hn Hne Hm T1 T2. set (D := one (mk1 [n] h2)).
  assert (P : pos [n]) by (constructor; [assumption|constructor]).
  assert (W : wf_tile (mk1 [n] h2)) by (apply mk1_wf; assumption).
  assert (WD : wft D) by (apply one_wf; assumption). assert (N : ntiles D = 1) by (apply one_n; assumption).
  assert (E1 : prodZ [n] = n) by (cbn; lia).
  assert (ED : tsz D 0 = n) by (unfold D; rewrite (TileProofs.one_tsz _ W); exact E1).
  eapply runs_weaken; [apply (acc_elem D [0] (fun i => i) (fun _ => m) (fun _ => [h1]) (fun _ => []) (fun _ => [])
    (fun _ => host_cpu n) (fun _ pre _ o v => match pre with b :: _ => zn (fl b) o | [] => dflt end) s); try assumption|].
  - intros i Hi. rewrite N in Hi. assert (i = 0) by lia. subst i. rewrite ED. exact T2.
  - unfold mk_acc. cbn [map app]. unfold D. rewrite one_th. reflexivity.
  - intros i [<-|[]]. lia.
  - auto.
  - intros i h _ [[<-|[]]|[[]|[]]]. cbn. intuition congruence.
  - intros i b1 b2 o v v' _ _. reflexivity.
  - intros i st d sc [<-|[]] Hti Hd' Hsc. destruct sc as [|]; [|discriminate]. cbn [map app].
    rewrite ED in *.
    assert (Et : ty (st h1) = (KF, n)) by (rewrite Hti; assumption).
    destruct (ty_BF _ _ Et) as (x & Ex & Lx). rewrite Ex. exists []. split; [|reflexivity]. unfold host_cpu. rewrite memcpy_n_ok by assumption. bnd.
    do 4 f_equal. rewrite <- Lx. symmetry. apply ztab_zn.
  - intros s' Hti [G1 G2]. split.
    + assert (L1 : zlen (fl (s h1)) = n) by (destruct (ty_BF _ _ T1) as (x & -> & L); exact L).
      assert (L2 : zlen (fl (s' h2)) = n) by (rewrite <- Hti in T2; destruct (ty_BF _ _ T2) as (x & -> & L); exact L).
      apply list_ext; [congruence|]. rewrite L2. intros k Hk. assert (Hi : inb [n] [k]) by (constructor; [assumption|constructor]).
      specialize (G1 [k] Hi). rewrite (ScatterRuns.one_etile D WD N [k] Hi), (ScatterRuns.one_eoff D WD N [k] Hi) in G1.
      assert (Eo : off (t_shape D) [k] = k) by (cbn; lia). rewrite Eo in G1. cbn [filter Z.eqb fold_left map] in G1. rewrite <- G1.
      unfold elem. rewrite (ScatterRuns.one_etile D WD N [k] Hi), (ScatterRuns.one_eoff D WD N [k] Hi), Eo. reflexivity.
    + intros h Hh. apply G2. intros t [<-|[]]. cbn. intuition congruence.
Qed.

(** ** The checks *)
Lemma check_0d_spec a : (a_shape a = [1] -> check_0d a = Ok tt) /\ (a_shape a <> [1] -> throws (check_0d a)).
Proof.
  unfold check_0d. split.
  - intros ->. reflexivity.
  - intros H. destruct (Z.eqb_spec (zlen (a_shape a)) 1) as [E|_]; cbn [negb throw_if]; [|eexists; reflexivity].
    destruct (a_shape a) as [|x [|y l]]; [discriminate| |unfold zlen in E; cbn [List.length] in E; lia].
    change (rd [x] 0) with (Ok x). bnd. destruct (Z.eqb_spec x 1) as [->|_]; [exfalso; apply H; reflexivity|eexists; reflexivity].
Qed.
Lemma check_nd_spec shape a : (a_shape a = shape -> check_nd (zlen shape) shape a = Ok tt) /\
  (a_shape a <> shape -> throws (check_nd (zlen shape) shape a)).
Proof.
  unfold check_nd. split.
  - intros ->. rewrite Z.eqb_refl. cbn [negb throw_if]. rewrite for_check_ok; [reflexivity|].
    intros i Hi. rewrite !rd_ok by lia. do 2 bnd. rewrite Z.eqb_refl. reflexivity.
  - intros Hne. destruct (Z.eqb_spec (zlen shape) (zlen (a_shape a))) as [E|_]; cbn [negb throw_if]; [|eexists; reflexivity].
    assert (H : exists i, 0 <= i < zlen shape /\ zn (a_shape a) i <> zn shape i).
    { destruct (existsb (fun i => negb (zn (a_shape a) i =? zn shape i)) (zrange (zlen shape))) eqn:Ex.
      - apply existsb_exists in Ex as (i & Hi & Hb). apply zrange_In in Hi. exists i. split; [assumption|].
        destruct (Z.eqb_spec (zn (a_shape a) i) (zn shape i)); [discriminate|assumption].
      - exfalso. apply Hne. apply list_ext; [congruence|]. rewrite <- E. intros k Hk.
        destruct (Z.eqb_spec (zn (a_shape a) k) (zn shape k)) as [|Hb]; [assumption|]. exfalso.
        rewrite <- not_true_iff_false in Ex. apply Ex. apply existsb_exists. exists k. split; [apply zrange_In; assumption|].
        destruct (Z.eqb_spec (zn (a_shape a) k) (zn shape k)); [contradiction|reflexivity]. }
    destruct H as (i & Hi & Hd). eexists. apply for_check_throw.
    + intros k Hk. rewrite !rd_ok by lia. do 2 bnd. destruct (_ =? _); [left|right]; reflexivity.
    + exists i. split; [assumption|]. rewrite !rd_ok by lia. do 2 bnd. destruct (Z.eqb_spec (zn (a_shape a) i) (zn shape i)); [contradiction|reflexivity].
Qed.

(** ** Tiles (nntile_core.cc:76-158) *)
Definition tcell (s : store T) (x : tile) (idx : list Z) : T := zn (fl (s (ti_h x))) (off (ti_shape x) idx).

Lemma off_aidx (sh idx : list Z) : inb sh idx -> off (ashape sh) (aidx idx) = off sh idx.
Proof. intros H. inversion H; subst; reflexivity. Qed.
Lemma prod_ashape (sh : list Z) : prodZ (ashape sh) = prodZ sh.
Proof. destruct sh; reflexivity. Qed.
Lemma ashape_nil (sh : list Z) : zlen sh = 0 -> sh = [].
Proof. destruct sh; [reflexivity|]. unfold zlen. cbn [List.length]. lia. Qed.
Lemma ashape_cons (sh : list Z) : zlen sh <> 0 -> ashape sh = sh.
Proof. destruct sh; [intros []; reflexivity|reflexivity]. Qed.

Lemma tile_io x a (k0 k1 : task T) : wf_tile x ->
  let r := if ti_ndim x =? 0 then _ <- check_0d a ;; Ok [k0] else _ <- check_nd (ti_ndim x) (ti_shape x) a ;; Ok [k1] in
  (a_shape a = ashape (ti_shape x) -> r = Ok [if ti_ndim x =? 0 then k0 else k1]) /\ (a_shape a <> ashape (ti_shape x) -> throws r).
Proof.
  intros W r. subst r. rewrite (ti_ndim_eq x W). destruct (Z.eqb_spec (zlen (ti_shape x)) 0) as [E|E].
  - rewrite (ashape_nil _ E). cbn [ashape]. destruct (check_0d_spec a) as [C1 C2]. split; intros H.
    + rewrite (C1 H). reflexivity.
    + destruct (C2 H) as [m ->]. eexists; reflexivity.
  - rewrite (ashape_cons _ E). destruct (check_nd_spec (ti_shape x) a) as [C1 C2]. split; intros H.
    + rewrite (C1 H). reflexivity.
    + destruct (C2 H) as [m ->]. eexists; reflexivity.
Qed.

Lemma tile_n x : wf_tile x -> (if ti_ndim x =? 0 then 1 else ti_nelems x) = prodZ (ti_shape x).
Proof.
  intros W. rewrite (ti_ndim_eq x W). unfold ti_nelems. rewrite (one_tt x W). cbn [tt_of tt_nelems].
  destruct (Z.eqb_spec (zlen (ti_shape x)) 0) as [E|E]; [rewrite (ashape_nil _ E)|]; reflexivity.
Qed.

Theorem C67_tile_from_array x a (s : store T) : wf_tile x ->
  let ok := a_shape a = ashape (ti_shape x) in
  (ok -> anew s a -> ty (s (ti_h x)) = (KF, prodZ (ti_shape x)) -> a_mem a <> ti_h x ->
   runs (tile_from_array x a) s (fun s' =>
     (forall idx, inb (ti_shape x) idx -> tcell s' x idx = acell s a (aidx idx)) /\ forall h, h <> ti_h x -> s' h = s h)) /\
  (~ ok -> throws (tile_from_array (T := T) x a)).
Proof.
  intros W ok. unfold tile_from_array. destruct (tile_io x a (host_write 1 a (ti_h x)) (host_write (ti_nelems x) a (ti_h x)) W) as [E1 E2]. split; [|exact E2].
  intros Hok Ta Tx Hne. rewrite (E1 Hok). pose proof (prodZ_pos _ (one_pos x W)) as Hp.
  assert (Et : (if ti_ndim x =? 0 then host_write 1 a (ti_h x) else host_write (ti_nelems x) a (ti_h x)) =
               host_write (T := T) (prodZ (ti_shape x)) a (ti_h x)) by (rewrite <- (tile_n x W); destruct (_ =? _); reflexivity).
  rewrite Et. unfold anew in Ta. red in Hok. rewrite Hok, prod_ashape in Ta.
  eapply runs_weaken; [apply host_runs; auto|]. intros s' _ [G F]. split; [|exact F].
  intros idx Hi. unfold tcell, acell. rewrite G, Hok, off_aidx by assumption. reflexivity.
Qed.

Theorem C67_tile_to_array x a (s : store T) : wf_tile x ->
  let ok := a_shape a = ashape (ti_shape x) in
  (ok -> anew s a -> ty (s (ti_h x)) = (KF, prodZ (ti_shape x)) -> a_mem a <> ti_h x ->
   runs (tile_to_array x a) s (fun s' =>
     (forall idx, inb (ti_shape x) idx -> acell s' a (aidx idx) = tcell s x idx) /\ forall h, h <> a_mem a -> s' h = s h)) /\
  (~ ok -> throws (tile_to_array (T := T) x a)).
Proof.
  intros W ok. unfold tile_to_array. destruct (tile_io x a (host_read 1 (ti_h x) a) (host_read (ti_nelems x) (ti_h x) a) W) as [E1 E2]. split; [|exact E2].
  intros Hok Ta Tx Hne. rewrite (E1 Hok). pose proof (prodZ_pos _ (one_pos x W)) as Hp.
  assert (Et : (if ti_ndim x =? 0 then host_read 1 (ti_h x) a else host_read (ti_nelems x) (ti_h x) a) =
               host_read (T := T) (prodZ (ti_shape x)) (ti_h x) a) by (rewrite <- (tile_n x W); destruct (_ =? _); reflexivity).
  rewrite Et. unfold anew in Ta. red in Hok. rewrite Hok, prod_ashape in Ta.
  eapply runs_weaken; [apply host_runs; auto|]. intros s' _ [G F]. split; [|exact F].
  intros idx Hi. unfold tcell, acell. rewrite G, Hok, off_aidx by assumption. reflexivity.
Qed.

(** ** Tensors (nntile_core.cc:205-325) *)
Lemma tmp_new sh next : pos sh -> exists t0, TensorTraits_new sh sh = Ok t0 /\
  Tensor_new t0 [0] next = Ok (one (mk1 sh next), [(next, prodZ sh)]).
Proof. intros P. exact (one_is_constructed (mk1 sh next) (mk1_wf sh next P)). Qed.

Lemma get_tile_one sh next : pos sh -> get_tile (one (mk1 sh next)) 0 = Ok (tt_of sh, next).
Proof.
  intros P. pose proof (one_nt _ (mk1_wf sh next P)) as E. unfold t_ntiles, t_grid in E. unfold get_tile. rewrite E.
  reflexivity.
Qed.
Lemma from_array_eq t a next scratch : wft t -> t_ndim t <> 0 -> a_shape a = t_shape t ->
  from_array (T := T) t a next scratch =
  then_ (Ok [host_write (prodZ (t_shape t)) a next]) (scatter_async ScOwn (one (mk1 (t_shape t) next)) t scratch).
Proof.
  intros W N E. unfold from_array. destruct (Z.eqb_spec (t_ndim t) 0) as [|_]; [contradiction|]. rewrite (t_ndim_eq _ W).
  rewrite (proj1 (check_nd_spec (t_shape t) a) E). bnd. destruct (tmp_new (t_shape t) next (wf_ps _ W)) as (t0 & -> & E2). bnd.
  rewrite E2. bnd. rewrite get_tile_one by apply (wf_ps _ W). bnd. reflexivity.
Qed.
Lemma to_array_eq t a next scratch : wft t -> t_ndim t <> 0 -> a_shape a = t_shape t ->
  to_array (T := T) t a next scratch =
  then_ (gather_async ScOwn t (one (mk1 (t_shape t) next)) scratch) (Ok [host_read (prodZ (t_shape t)) next a]).
Proof.
  intros W N E. unfold to_array. destruct (Z.eqb_spec (t_ndim t) 0) as [|_]; [contradiction|]. rewrite (t_ndim_eq _ W).
  rewrite (proj1 (check_nd_spec (t_shape t) a) E). bnd. destruct (tmp_new (t_shape t) next (wf_ps _ W)) as (t0 & -> & E2). bnd.
  rewrite E2. bnd. unfold then_. destruct (gather_async _ _ _ _) as [ts|m|]; [|reflexivity|reflexivity]. do 2 bnd. rewrite get_tile_one by apply (wf_ps _ W). bnd. reflexivity.
Qed.

(** What both functions need of the store: the tensor and the memory of the array hold
    floating-point numbers, [next] is the fresh handle of the temporary tensor and [scratch] the
    scratch buffer that StarPU gives to the subcopy codelet. *)
Record io_ready (s : store T) (t : tensor) (a : ndarray) (next scratch : handle) : Prop := {
  io_t : stored KF s t; io_a : anew s a; io_next : ty (s next) = (KF, prodZ (t_shape t));
  io_scr : ty (s scratch) = (KI, 2 * zlen (t_shape t));
  io_at : ~ In (a_mem a) (tile_handles t); io_nt : ~ In next (tile_handles t); io_na : next <> a_mem a
}.

Lemma throws_then {A} (r1 : res unit) (k : unit -> res A) : throws r1 -> throws (bind r1 k).
Proof. intros [m ->]. eexists; reflexivity. Qed.
Lemma io_throws (r0 rn : unit -> res (list (task T))) t a : wft t -> a_shape a <> ashape (t_shape t) ->
  throws (if t_ndim t =? 0 then bind (check_0d a) r0 else bind (check_nd (t_ndim t) (t_shape t) a) rn).
Proof.
  intros W H. rewrite (t_ndim_eq _ W). destruct (Z.eqb_spec (zlen (t_shape t)) 0) as [E|E].
  - apply throws_then, check_0d_spec. rewrite (ashape_nil _ E) in H. exact H.
  - apply throws_then, check_nd_spec. rewrite (ashape_cons _ E) in H. exact H.
Qed.

Lemma one_wft' x : wf_tile x -> wf_tensor (one x).
Proof. intros H. destruct (one_is_constructed x H) as (t & E1 & E2). eapply Tensor_new_wf; eassumption. Qed.
Section IO.
Variables (s : store T) (t : tensor) (a : ndarray) (next scratch : handle).
Hypothesis (W0 : wf_tensor t) (W : wft t) (R : io_ready s t a next scratch).
Lemma tmp_wf : wf_tile (mk1 (t_shape t) next).
Proof. apply mk1_wf, (wf_ps _ W). Qed.
Lemma tmp_disj : disj (one (mk1 (t_shape t) next)) t.
Proof. intros h [<-|[]] H. exact (io_nt _ _ _ _ _ R H). Qed.
Lemma tmp_disj' : disj t (one (mk1 (t_shape t) next)).
Proof. intros h H [<-|[]]. exact (io_nt _ _ _ _ _ R H). Qed.
Lemma tmp_stored s1 : tinv s s1 -> stored KF s1 (one (mk1 (t_shape t) next)).
Proof.
  intros Hti i Hi. rewrite (one_n _ tmp_wf) in Hi. assert (i = 0) by lia. subst i. rewrite (TileProofs.one_tsz _ tmp_wf). rewrite one_th, Hti.
  exact (io_next _ _ _ _ _ R).
Qed.
Lemma scr_t : ~ In scratch (tile_handles t).
Proof.
  intros H. destruct (In_th t scratch W H) as (i & Hi & E). pose proof (io_t _ _ _ _ _ R i Hi) as X. rewrite <- E, (io_scr _ _ _ _ _ R) in X. discriminate.
Qed.
Lemma scr_tmp : ~ In scratch (tile_handles (one (mk1 (t_shape t) next))).
Proof. intros [H|[]]. cbn in H. subst scratch. pose proof (io_next _ _ _ _ _ R) as X. rewrite (io_scr _ _ _ _ _ R) in X. discriminate. Qed.
Lemma tmp_elem s1 idx : inb (t_shape t) idx -> elem s1 (one (mk1 (t_shape t) next)) idx = zn (fl (s1 next)) (off (t_shape t) idx).
Proof.
  intros Hi. unfold elem. rewrite (ScatterRuns.one_etile _ (one_wf _ tmp_wf) (one_n _ tmp_wf) idx Hi), (ScatterRuns.one_eoff _ (one_wf _ tmp_wf) (one_n _ tmp_wf) idx Hi). reflexivity.
Qed.
Lemma zero_tile : zlen (t_shape t) = 0 -> ntiles t = 1 /\ tsz t 0 = 1 /\ tile_handles t = [th t 0] /\ t_shape t = [] /\
  exists tt0, get_tile t 0 = Ok (tt0, th t 0).
Proof.
  intros E. apply ashape_nil in E. assert (N : ntiles t = 1) by (unfold ntiles; rewrite E; destruct (t_base t); reflexivity).
  split; [assumption|]. split; [rewrite (ScatterRuns.one_tsz t W N), E; reflexivity|]. split.
  - pose proof (wf_hl _ W) as L. rewrite N in L. unfold th. destruct (tile_handles t) as [|h [|h' l]]; [discriminate|reflexivity|unfold zlen in L; cbn [List.length] in L; lia].
  - split; [assumption|]. unfold get_tile. pose proof (t_ntiles_eq _ W) as En. unfold t_ntiles, t_grid in En. rewrite En, N. cbn [Z.ltb Z.compare orb Z.geb throw_if].
    pose proof (get_tile_handle_ok t 0 W ltac:(lia)) as E1. pose proof (get_tile_traits_ok t 0 W ltac:(lia)) as E2. unfold get_tile_handle in E1. unfold get_tile_traits in E2.
    rewrite E1, E2. do 2 bnd. eexists; reflexivity.
Qed.

Lemma from_array_runs : a_shape a = ashape (t_shape t) ->
  runs (from_array t a next scratch) s (fun s' =>
    (forall idx, inb (t_shape t) idx -> elem s' t idx = acell s a (aidx idx)) /\
    (forall h, ~ In h (tile_handles t) -> h <> next -> s' h = s h)).
Proof.
  intros Hok. pose proof (prodZ_pos _ (wf_ps _ W)) as Hp.
  assert (Ta : ty (s (a_mem a)) = (KF, prodZ (t_shape t))) by (pose proof (io_a _ _ _ _ _ R) as X; unfold anew in X; rewrite Hok, prod_ashape in X; exact X).
  destruct (Z.eq_dec (zlen (t_shape t)) 0) as [E|E].
  - destruct (zero_tile E) as (N & Z0 & Eh & Es & tt0 & Eg). unfold from_array. rewrite (t_ndim_eq _ W), E. cbn [Z.eqb].
    rewrite (proj1 (check_0d_spec a)) by (rewrite Hok, Es; reflexivity). bnd. rewrite Eg. bnd. unfold host_write.
    rewrite Es in Ta. change (prodZ []) with 1 in Ta.
    eapply runs_weaken; [apply (host_runs (a_mem a) (th t 0) 1 MW s); try assumption; try lia; auto|].
    + intros X. apply (io_at _ _ _ _ _ R). rewrite Eh. left. symmetry. exact X.
    + rewrite (io_t _ _ _ _ _ R 0) by lia. rewrite Z0. reflexivity.
    + intros s' _ [G F]. split.
      * intros idx Hi. unfold elem. rewrite (ScatterRuns.one_etile t W N idx Hi), (ScatterRuns.one_eoff t W N idx Hi), G. unfold acell. rewrite Hok, off_aidx by assumption. reflexivity.
      * intros h Hh _. apply F. intros ->. apply Hh. rewrite Eh. left. reflexivity.
  - rewrite (ashape_cons _ E) in Hok. rewrite from_array_eq by (try assumption; rewrite (t_ndim_eq _ W); assumption).
    eapply runs_then; [apply (host_runs (a_mem a) next (prodZ (t_shape t)) MW s); auto; [intros X; apply (io_na _ _ _ _ _ R); congruence|exact (io_next _ _ _ _ _ R)]|].
    intros s1 Hti [G F]. eapply runs_weaken; [apply (proj1 (C09_scatter (one (mk1 (t_shape t) next)) t scratch s1 (one_wft' _ tmp_wf) W0))|].
    + split; [apply one_n, tmp_wf|reflexivity].
    + apply tmp_stored; assumption.
    + eapply tinv_stored; [exact Hti|exact (io_t _ _ _ _ _ R)].
    + exact tmp_disj.
    + exact scr_t.
    + rewrite Hti. exact (io_scr _ _ _ _ _ R).
    + intros s2 _ [G2 F2]. split.
      * intros idx Hi. rewrite (G2 idx Hi), (tmp_elem s1 idx Hi), G. unfold acell. rewrite Hok. destruct (t_shape t) as [|x l]; [contradiction|]. inversion Hi; subst. reflexivity.
      * intros h H1 H2. rewrite F2 by (intros u [<-|[]]; assumption). apply F. assumption.
Qed.

Lemma to_array_runs : a_shape a = ashape (t_shape t) ->
  runs_nd (to_array t a next scratch) s (fun s' =>
    (forall idx, inb (t_shape t) idx -> acell s' a (aidx idx) = elem s t idx) /\
    (forall h, h <> a_mem a -> h <> next -> s' h = s h)).
Proof.
  intros Hok. pose proof (prodZ_pos _ (wf_ps _ W)) as Hp.
  assert (Ta : ty (s (a_mem a)) = (KF, prodZ (t_shape t))) by (pose proof (io_a _ _ _ _ _ R) as X; unfold anew in X; rewrite Hok, prod_ashape in X; exact X).
  destruct (Z.eq_dec (zlen (t_shape t)) 0) as [E|E].
  - destruct (zero_tile E) as (N & Z0 & Eh & Es & tt0 & Eg). unfold to_array. rewrite (t_ndim_eq _ W), E. cbn [Z.eqb].
    rewrite (proj1 (check_0d_spec a)) by (rewrite Hok, Es; reflexivity). bnd. rewrite Eg. bnd. unfold host_read.
    rewrite Es in Ta. change (prodZ []) with 1 in Ta. apply runs_runs_nd.
    eapply runs_weaken; [apply (host_runs (th t 0) (a_mem a) 1 MRW s); try assumption; try lia; auto|].
    + intros X. apply (io_at _ _ _ _ _ R). rewrite Eh. left. exact X.
    + rewrite (io_t _ _ _ _ _ R 0) by lia. rewrite Z0. reflexivity.
    + intros s' _ [G F]. split.
      * intros idx Hi. unfold elem. rewrite (ScatterRuns.one_etile t W N idx Hi), (ScatterRuns.one_eoff t W N idx Hi), <- G. unfold acell. rewrite Hok, off_aidx by assumption. reflexivity.
      * intros h Hh _. apply F. assumption.
  - rewrite (ashape_cons _ E) in Hok. rewrite to_array_eq by (try assumption; rewrite (t_ndim_eq _ W); assumption).
    eapply nd_then; [apply (proj1 (C09_gather t (one (mk1 (t_shape t) next)) scratch s W0 (one_wft' _ tmp_wf)))|].
    + split; [apply one_n, tmp_wf|reflexivity].
    + exact (io_t _ _ _ _ _ R).
    + apply tmp_stored. intros h. reflexivity.
    + exact tmp_disj'.
    + exact scr_tmp.
    + exact (io_scr _ _ _ _ _ R).
    + intros s1 Hti [G F]. apply runs_runs_nd.
      eapply runs_weaken; [apply (host_runs next (a_mem a) (prodZ (t_shape t)) MRW s1); auto; [exact (io_na _ _ _ _ _ R)|rewrite Hti; exact (io_next _ _ _ _ _ R)|rewrite Hti; assumption]|].
      intros s2 _ [G2 F2]. split.
      * intros idx Hi. rewrite <- (G idx Hi), (tmp_elem s1 idx Hi), <- G2. unfold acell. rewrite Hok. destruct (t_shape t) as [|x l]; [contradiction|]. inversion Hi; subst. reflexivity.
      * intros h H1 H2. rewrite F2 by assumption. apply F. intros u [<-|[]] [X|[]]. cbn in X. congruence.
Qed.
End IO.

Theorem C67_from_array (t : tensor) (a : ndarray) (next scratch : handle) (s : store T) : wf_tensor t ->
  let ok := a_shape a = ashape (t_shape t) in
  (ok -> io_ready s t a next scratch ->
   runs (from_array t a next scratch) s (fun s' =>
     (forall idx, inb (t_shape t) idx -> elem s' t idx = acell s a (aidx idx)) /\
     (forall h, ~ In h (tile_handles t) -> h <> next -> s' h = s h))) /\
  (~ ok -> throws (from_array (T := T) t a next scratch)).
Proof.
  intros W0 ok. pose proof (wf_wft _ W0) as W. split.
  - intros Hok R. apply from_array_runs; assumption.
  - intros Hn. apply io_throws; assumption.
Qed.

Theorem C67_to_array (t : tensor) (a : ndarray) (next scratch : handle) (s : store T) : wf_tensor t ->
  let ok := a_shape a = ashape (t_shape t) in
  (ok -> io_ready s t a next scratch ->
   runs_nd (to_array t a next scratch) s (fun s' =>
     (forall idx, inb (t_shape t) idx -> acell s' a (aidx idx) = elem s t idx) /\
     (forall h, h <> a_mem a -> h <> next -> s' h = s h))) /\
  (~ ok -> throws (to_array (T := T) t a next scratch)).
Proof.
  intros W0 ok. pose proof (wf_wft _ W0) as W. split.
  - intros Hok R. apply to_array_runs; assumption.
  - intros Hn. apply io_throws; assumption.
Qed.

Lemma io_tinv s s1 t a next scratch : tinv s s1 -> io_ready s t a next scratch -> io_ready s1 t a next scratch.
Proof.
  intros H [R1 R2 R3 R4 R5 R6 R7]. split; try assumption; [eapply tinv_stored; eassumption|unfold anew in *; rewrite H; assumption|rewrite H; assumption|rewrite H; assumption].
Qed.

(** array to tensor to array: the second array receives the elements of the first, whatever the tiling *)
Theorem C67_array_roundtrip (t : tensor) (a b : ndarray) (n1 n2 c1 c2 : handle) (s : store T) : wf_tensor t ->
  a_shape a = ashape (t_shape t) -> a_shape b = ashape (t_shape t) ->
  io_ready s t a n1 c1 -> io_ready s t b n2 c2 ->
  runs_nd (then_ (from_array t a n1 c1) (to_array t b n2 c2)) s (fun s' =>
    forall idx, inb (t_shape t) idx -> acell s' b (aidx idx) = acell s a (aidx idx)).
Proof.
  intros W Ea Eb Ra Rb. eapply nd_then; [apply runs_runs_nd, (proj1 (C67_from_array t a n1 c1 s W)); assumption|].
  intros s1 Hti [G _]. eapply nd_weaken; [apply (proj1 (C67_to_array t b n2 c2 s1 W)); [assumption|eapply io_tinv; eassumption]|].
  intros s2 _ [G2 _] idx Hi. rewrite (G2 idx Hi). apply G. assumption.
Qed.

(** tensor to array to tensor: a tensor of any other tiling receives the elements *)
Theorem C67_tensor_roundtrip (t u : tensor) (a : ndarray) (n1 n2 c1 c2 : handle) (s : store T) : wf_tensor t -> wf_tensor u ->
  t_shape u = t_shape t -> a_shape a = ashape (t_shape t) ->
  io_ready s t a n1 c1 -> io_ready s u a n2 c2 ->
  runs_nd (then_ (to_array t a n1 c1) (from_array u a n2 c2)) s (fun s' =>
    forall idx, inb (t_shape t) idx -> elem s' u idx = elem s t idx).
Proof.
  intros W W' Es Ea R R'. eapply nd_then; [apply (proj1 (C67_to_array t a n1 c1 s W)); assumption|].
  intros s1 Hti [G _]. eapply nd_weaken; [apply runs_runs_nd, (proj1 (C67_from_array u a n2 c2 s1 W')); [rewrite Es; assumption|eapply io_tinv; eassumption]|].
  intros s2 _ [G2 _] idx Hi. rewrite (G2 idx) by (rewrite Es; assumption). apply G. assumption.
Qed.
End Np.
