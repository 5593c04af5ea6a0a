(** * Reductions along an axis: sum_slice, norm_slice, sumprod_slice (any scalar operations) *)
From Verif Require Import Base Spec Geometry Traits TraitsProofs Runtime Ops TensorSem ElemGeneric OneOut
  KernelsElem ElemOps Axis AccRuns Loops SliceOps SliceGeo SliceProofs.

Lemma for_first {A} n (body : Z -> list A -> res (list A)) (f : Z -> A) acc : 0 < n ->
  (forall j acc, 1 <= j < n -> body j acc = Ok (acc ++ [f j])) ->
  for_ 1 n body (acc ++ [f 0]) = Ok (acc ++ map f (zrange n)).
Proof.
  intros Hn H. rewrite <- (for_map n (fun j acc => Ok (acc ++ [f j])) f acc) by reflexivity.
  rewrite (for_head 0) by assumption. bnd. change (0 + 1) with 1.
  apply for_ext. intros i s Hi. apply H. lia.
Qed.

(** two-pointer check loop *)
Lemma slice_check2_checks src dst axis : wft src -> wft dst ->
  checks (slice_match src dst axis) (slice_check2 src dst axis).
Proof.
  intros Hb Hs. unfold slice_check2. rewrite !t_ndim_eq by assumption.
  set (n := zlen (t_shape src)). set (n' := zlen (t_shape dst)).
  set (P1 := forall i, 0 <= i < axis -> zn (t_shape src) i = zn (t_shape dst) i /\ zn (t_base src) i = zn (t_base dst) i).
  set (P2 := forall i, axis + 1 <= i < n -> zn (t_shape src) i = zn (t_shape dst) (i - 1) /\ zn (t_base src) i = zn (t_base dst) (i - 1)).
  apply (checks_iff (n - 1 = n' /\ n <> 0 /\ 0 <= axis /\ axis < n /\ (P1 /\ P2))).
  { unfold slice_match. fold n. split.
    - intros (E & H0 & H1 & H2 & HP). split; [lia|]. apply (loops_match src dst axis); auto. fold n n'; lia.
    - intros (H1 & H2). assert (n = n' + 1). { unfold n, n'. destruct H2 as [-> _]. rewrite zlen_del; lia. }
      apply (loops_match src dst axis) in H2; auto. split; [lia|]. split; [lia|]. split; [lia|]. split; [lia|]. exact H2. }
  apply checks_eq. intros E. apply checks_if; [intros X; apply Z.eqb_eq in X; lia|intros X; apply Z.eqb_neq in X; lia|]. intros H0.
  apply checks_if; [intros X; apply Z.ltb_lt in X; lia|intros X; apply Z.ltb_ge in X; lia|]. intros H1.
  apply checks_if; [rewrite Z.geb_leb; intros X; apply Z.leb_le in X; lia|rewrite Z.geb_leb; intros X; apply Z.leb_gt in X; lia|].
  intros H2.
  set (body := fun i j : Z => if i =? axis then Ok j else _ <- check_dim src i dst j ;; Ok (j + 1)).
  set (p := fun k => if k <=? axis then k else k - 1).
  set (Q := fun i => i <> axis -> zn (t_shape src) i = zn (t_shape dst) (p i) /\ zn (t_base src) i = zn (t_base dst) (p i)).
  assert (G : forall m, 0 <= m -> m <= n ->
     ((forall i, 0 <= i < m -> Q i) /\ for_ 0 m body 0 = Ok (p m)) \/
     (~ (forall i, 0 <= i < m -> Q i) /\ exists msg, for_ 0 m body 0 = Throw msg)).
  { intros m0 Hm0. pattern m0. apply natlike_ind; [| |assumption].
    - intros _. left. split; [intros; lia|]. rewrite for_empty by lia. unfold p. destruct (Z.leb_spec 0 axis); [reflexivity|lia].
    - intros m Hm IH Hmn. unfold Z.succ. rewrite for_snoc by assumption. destruct (IH ltac:(lia)) as [[HQ ->]|[HQ (msg & ->)]].
      + bnd. unfold body at 1 2. destruct (Z.eqb_spec m axis) as [Ea|Ea].
        * left. split.
          { intros i Hi. destruct (Z.eq_dec i m) as [->|]; [intros X; contradiction|]. apply HQ. lia. }
          { f_equal. unfold p. destruct (Z.leb_spec m axis), (Z.leb_spec (m + 1) axis); lia. }
        * assert (Hp : 0 <= p m < n'). { unfold p. destruct (Z.leb_spec m axis); lia. }
          destruct (check_dim_checks src m dst (p m) Hb Hs ltac:(fold n; lia) ltac:(fold n'; lia)) as [[HC ->]|[HC (msg & ->)]].
          { left. bnd. split.
            - intros i Hi. destruct (Z.eq_dec i m) as [->|]; [intros _; assumption|]. apply HQ. lia.
            - f_equal. unfold p. destruct (Z.leb_spec m axis), (Z.leb_spec (m + 1) axis); lia. }
          { right. split; [|eexists; reflexivity]. intros HA. apply HC. apply (HA m); [lia|assumption]. }
      + right. split; [|eexists; reflexivity]. intros HA. apply HQ. intros i Hi. apply HA. lia. }
  apply (checks_iff (forall i, 0 <= i < n -> Q i)).
  { unfold P1, P2, Q, p. split.
    - intros HA. split; intros i Hi; specialize (HA i ltac:(lia) ltac:(lia)); destruct (Z.leb_spec i axis); try lia; assumption.
    - intros [HA HB] i Hi Hne. destruct (Z.leb_spec i axis); [apply HA|apply HB]; lia. }
  destruct (G n) as [[HQ ->]|[HQ (msg & ->)]]; [lia|lia| |].
  - left. split; [assumption|reflexivity].
  - right. split; [assumption|eexists; reflexivity].
Qed.

Lemma norm_slice_checks src dst axis : wft src -> wft dst ->
  checks (slice_match src dst axis) (norm_slice_check src dst axis).
Proof.
  intros Hb Hs. unfold norm_slice_check. rewrite !t_ndim_eq by assumption.
  set (n := zlen (t_shape src)). set (n' := zlen (t_shape dst)).
  set (P1 := forall i, 0 <= i < axis -> zn (t_shape src) i = zn (t_shape dst) i /\ zn (t_base src) i = zn (t_base dst) i).
  set (P2 := forall i, axis + 1 <= i < n -> zn (t_shape src) i = zn (t_shape dst) (i - 1) /\ zn (t_base src) i = zn (t_base dst) (i - 1)).
  apply (checks_iff (n - 1 = n' /\ n <> 0 /\ 0 <= axis /\ axis < n /\ P1 /\ P2 /\ True)).
  { unfold slice_match. fold n. split.
    - intros (E & H0 & H1 & H2 & HP1 & HP2 & _). split; [lia|]. apply (loops_match src dst axis); auto. fold n n'; lia.
    - intros (H1 & H2). assert (n = n' + 1). { unfold n, n'. destruct H2 as [-> _]. rewrite zlen_del; lia. }
      apply (loops_match src dst axis) in H2; auto. destruct H2. split; [lia|]. split; [lia|]. split; [lia|]. split; [lia|]. auto. }
  apply checks_eq. intros E. apply checks_if; [intros X; apply Z.eqb_eq in X; lia|intros X; apply Z.eqb_neq in X; lia|]. intros H0.
  apply checks_if; [intros X; apply Z.ltb_lt in X; lia|intros X; apply Z.ltb_ge in X; lia|]. intros H1.
  apply checks_if; [rewrite Z.geb_leb; intros X; apply Z.leb_le in X; lia|rewrite Z.geb_leb; intros X; apply Z.leb_gt in X; lia|].
  intros H2. apply checks_seq.
  { apply checks_for. intros i Hi. apply check_dim_checks; auto; fold n n'; lia. }
  intros HP1. apply checks_seq.
  { apply checks_for. intros i Hi. apply check_dim_checks; auto; fold n n'; lia. }
  intros _. apply checks_ok.
Qed.

Lemma sumprod_slice_checks src1 src2 dst axis : wft src1 -> wft src2 -> wft dst ->
  checks (t_shape src1 = t_shape src2 /\ slice_match src1 dst axis) (sumprod_slice_check src1 src2 dst axis).
Proof.
  intros H1 H2 Hd. unfold sumprod_slice_check. rewrite !t_ndim_eq by assumption.
  apply (checks_iff (t_shape src1 = t_shape src2 /\ zlen (t_shape src1) = zlen (t_shape dst) + 1 /\
    zlen (t_shape src1) <> 0 /\ slice_match src1 dst axis /\ True)).
  { split; [tauto|]. intros (E & Hm). split; [assumption|].
    assert (X : zlen (t_shape src1) = zlen (t_shape dst) + 1).
    { destruct Hm as (Ha & -> & _). rewrite zlen_del by assumption. lia. }
    split; [assumption|]. split; [pose proof (zlen_nonneg (t_shape dst)); lia|]. auto. }
  apply list_eqb_checks. intros _. apply checks_eq. intros _.
  apply checks_if; [intros X; apply Z.eqb_eq in X; lia|intros X; apply Z.eqb_neq in X; lia|]. intros _.
  apply slice_check_checks; [assumption|assumption|]. intros _. apply checks_ok.
Qed.

Lemma fold_left_map' {A B C} (f : A -> B -> A) (g : C -> B) l a :
  fold_left f (map g l) a = fold_left (fun a x => f a (g x)) l a.
Proof. revert a; induction l; simpl; auto. Qed.
Lemma fold_left_ext {A B} (f g : A -> B -> A) l a : (forall a x, In x l -> f a x = g a x) -> fold_left f l a = fold_left g l a.
Proof.
  revert a; induction l as [|x l IH]; simpl; intros a H; [reflexivity|].
  rewrite H by (left; reflexivity). apply IH. intros; apply H; right; assumption.
Qed.

Section R.
Context {T : Type} {O : Ops T}.
Local Notation vec := (list T).
Variables (src dst : tensor) (axis : Z).
Hypothesis (HA : wft src) (HB : wft dst) (Hm : slice_match src dst axis).
Let d3 (p : Z * Z) := dim3 axis (tsh src (sg_out src dst axis p)).
(** extent of the source tiles at position j along the axis *)
Definition ax_len (j : Z) : Z := Z.min (zn (t_base src) axis) (zn (t_shape src) axis - j * zn (t_base src) axis).

Lemma red_filter idx : inb (t_shape dst) idx ->
  filter (fun p => fst p =? etile dst idx) (sg_xs src dst axis) = map (pair (etile dst idx)) (zrange (sg_n src axis)).
Proof.
  intros Hi. apply filter_prod_fst; [apply NoDup_zrange|]. apply zrange_In. apply etile_bound; assumption.
Qed.

(** Where the kernels of reductions look for the l-th value. *)
Definition cell (p : Z * Z) (o l : Z) : Z :=
  cz [zn (d3 p) 0; zn (d3 p) 2] 0 o + zn (d3 p) 0 * (l + zn (d3 p) 1 * cz [zn (d3 p) 0; zn (d3 p) 2] 1 o).

Theorem reduce_runs (srcs : list tensor) (md : Z -> mode) (body : Z * Z -> list (buf T) -> res (list (buf T)))
    (V : Z -> list (Z -> T) -> T -> T) s r :
  (forall t, In t srcs -> wft t /\ t_shape t = t_shape src /\ t_base t = t_base src /\ disj t dst /\ stored KF s t) ->
  stored KF s dst ->
  r = Ok (map (fun p => mkTask (map (fun t => (th t (sg_out src dst axis p), MR)) srcs ++
                                 [(th dst (fst p), md (snd p))]) (body p)) (sg_xs src dst axis)) ->
  (forall j, md j = MW \/ md j = MRW) ->
  (forall j fs v v', md j = MW -> V j fs v = V j fs v') ->
  (forall j fs gs v, Forall2 (fun f g => forall l, 0 <= l < ax_len j -> f l = g l) fs gs -> V j fs v = V j gs v) ->
  (forall i j (ls : list vec) d, 0 <= i < ntiles dst -> 0 <= j < sg_n src axis ->
     List.length ls = List.length srcs -> (forall l, In l ls -> zlen l = tsz src (sg_out src dst axis (i, j))) ->
     zlen d = tsz dst i ->
     body (i, j) (map BF ls ++ [BF d]) = Ok (map BF ls ++ [BF (ztab (tsz dst i) (fun o =>
        V j (map (fun l => fun x => zn l (cell (i, j) o x)) ls) (zn d o)))])) ->
  runs r s (fun s' =>
    (forall idx, inb (t_shape dst) idx ->
       elem s' dst idx = fold_left (fun v j => V j (map (fun t l => elem s t (ins axis (j * zn (t_base src) axis + l) idx)) srcs) v)
          (zrange (sg_n src axis)) (elem s dst idx)) /\
    frame [dst] s s').
Proof.
  intros Hs Sd Er Hmd Hw Hext Hb.
  eapply runs_weaken; [apply (acc_elem dst (sg_xs src dst axis) fst (fun p => md (snd p))
    (fun p => map (fun t => th t (sg_out src dst axis p)) srcs) (fun _ => []) (fun _ => []) body
    (fun p b1 _ o v => V (snd p) (map (fun b l => zn (fl b) (cell p o l)) b1) v))|].
  - assumption.
  - assumption.
  - rewrite Er. f_equal. apply map_ext. intros p. f_equal. unfold mk_acc. rewrite map_map. reflexivity.
  - intros [i j] Hx. apply sg_xs_In in Hx. apply Hx.
  - intros x _. apply Hmd.
  - intros [i j] h Hx [H|[[]|[]]]. apply in_map_iff in H as (t & <- & Ht).
    destruct (Hs t Ht) as (W & E1 & E2 & Dj & St). apply sg_xs_In in Hx. cbn [fst snd] in *.
    apply disj_notin; [assumption|assumption|]. rewrite (ntiles_ext t src) by assumption. apply sg_bound; tauto || assumption.
  - intros x b1 b2 o v v' _ E. apply Hw. assumption.
  - intros [i j] st d sc Hx Ht Hl Hsc. apply sg_xs_In in Hx. cbn [fst snd] in *. destruct Hx as [Hi Hj].
    destruct sc; [|discriminate]. exists []. split; [|reflexivity].
    pose proof (sg_bound src dst axis HA HB Hm i j Hi Hj) as Ho.
    assert (Hls : exists ls : list vec, map st (map (fun t => th t (sg_out src dst axis (i, j))) srcs) = map BF ls /\
       List.length ls = List.length srcs /\ forall l, In l ls -> zlen l = tsz src (sg_out src dst axis (i, j))).
    { clear Er Hb Hext Hw. induction srcs as [|t srcs IH].
      - exists []. repeat split. intros l [].
      - destruct IH as (ls & E & El & HL); [intros; apply Hs; right; assumption|].
        destruct (Hs t ltac:(left; reflexivity)) as (W & E1 & E2 & Dj & St).
        assert (Ho' : 0 <= sg_out src dst axis (i, j) < ntiles t) by (rewrite (ntiles_ext t src); assumption).
        destruct (bufF s st t _ Ht St Ho') as (l & El' & Hll).
        exists (l :: ls). cbn [map]. rewrite El', E. split; [reflexivity|]. split; [simpl; congruence|].
        intros l' [<-|Hin]; [|apply HL; assumption]. rewrite Hll. apply tsz_ext; assumption. }
    destruct Hls as (ls & E & El & HL). rewrite E. cbn [map app]. rewrite Hb by assumption.
    do 4 f_equal. apply ztab_ext. intros o _. rewrite map_map. reflexivity.
  - intros s' _ [H1 H2]. split; [|assumption]. intros idx Hi. rewrite H1 by assumption.
    rewrite red_filter by assumption. rewrite fold_left_map'. apply fold_left_ext. intros v j Hj.
    apply zrange_In in Hj. cbn [snd]. rewrite !map_map. apply Hext.
    clear - Hs HA HB Hm Hi Hj. induction srcs as [|t srcs IH]; [constructor|]. cbn [map]. constructor; [|apply IH; intros; apply Hs; right; assumption].
    intros l Hl. destruct (Hs t ltac:(left; reflexivity)) as (W & E1 & E2 & Dj & St).
    pose proof (etile_bound dst idx HB Hi) as Hit.
    destruct (sg_sizes src dst axis HA HB Hm (etile dst idx) j Hit Hj) as (_ & _ & _ & _ & _ & _ & K).
    destruct (sg_up src dst axis HA HB Hm idx j l Hi Hj) as (U1 & U2 & U3).
    { cbv zeta in K. rewrite K. exact Hl. }
    unfold elem. rewrite (etile_ext t src), (eoff_ext t src) by assumption. rewrite U2, U3. reflexivity.
Qed.
End R.

Section Ops3.
Context {T : Type} {O : Ops T}.
Local Notation vec := (list T).
Variables (src dst : tensor) (axis : Z).
Hypothesis (HA : wft src) (HB : wft dst).
Let d3 (p : Z * Z) := dim3 axis (tsh src (sg_out src dst axis p)).

Definition bj (beta : T) (j : Z) : T := if j =? 0 then beta else o_one.
Lemma rmode_cases (beta : T) : rmode false beta = MW \/ rmode false beta = MRW.
Proof. unfold rmode. destruct (o_eqb beta o_zero), (o_eqb beta o_one); auto. Qed.
Lemma rmode_W (beta : T) : rmode false beta = MW -> o_eqb beta o_zero = true.
Proof. unfold rmode. destruct (o_eqb beta o_zero), (o_eqb beta o_one); auto; discriminate. Qed.

Lemma dst_steps i {A} (K : list Z -> handle -> res A) : slice_match src dst axis -> 0 <= i < ntiles dst ->
  (h <- get_tile_handle dst i ;; v <- linear_to_index (t_grid dst) i ;;
   w <- slice_index2 src axis v ;; _ <- get_tile_traits dst i ;; K w h)
  = K (ins axis 0 (unoff (gridZ (t_shape dst) (t_base dst)) i)) (th dst i).
Proof.
  intros Hm Hi. pose proof (zlen_gs src dst axis HA Hm) as Hg.
  rewrite get_tile_handle_ok by assumption. bnd.
  rewrite t_grid_eq by assumption. rewrite linear_to_index_ok by (auto using wf_pg). bnd.
  rewrite slice_index2_ok by (rewrite ?zlen_unoff; solve [assumption | apply Hm]). bnd.
  rewrite get_tile_traits_ok by assumption. bnd. reflexivity.
Qed.

Lemma sum_slice_submits alpha beta redux : slice_match src dst axis ->
  sum_slice_async alpha src beta dst axis redux =
    Ok (map (fun p => sum_slice_submit (zn (d3 p) 0) (zn (d3 p) 2) (zn (d3 p) 1) alpha (th src (sg_out src dst axis p))
                        (bj beta (snd p)) (th dst (fst p)) redux) (sg_xs src dst axis)).
Proof.
  intros Hm. unfold sum_slice_async.
  rewrite (checks_true _ _ (slice_check2_checks src dst axis HA HB)) by assumption. bnd.
  rewrite t_ntiles_eq by assumption. apply (slice_pairs src dst axis). intros i ts Hi.
  rewrite dst_steps by assumption. pose proof (sg_n_pos src dst axis HA Hm) as Hn.
  unfold sum_slice_tile at 1. rewrite (sg_steps src dst axis i 0) by (assumption || lia). cbv zeta. bnd.
  rewrite rd_grid by (assumption || apply Hm). bnd.
  set (f := fun j => sum_slice_submit (zn (d3 (i, j)) 0) (zn (d3 (i, j)) 2) (zn (d3 (i, j)) 1) alpha (th src (sg_out src dst axis (i, j)))
                        (bj beta j) (th dst i) redux).
  refine (for_first (sg_n src axis) _ f ts Hn _). intros j acc Hj.
  unfold sum_slice_tile. rewrite (sg_steps src dst axis i j) by (assumption || lia). cbv zeta. bnd.
  do 2 f_equal. unfold f, bj. destruct (Z.eqb_spec j 0); [lia|]. reflexivity.
Qed.

Lemma norm_slice_submits alpha beta redux : slice_match src dst axis ->
  norm_slice_async alpha src beta dst axis redux =
    Ok (map (fun p => norm_slice_submit (zn (d3 p) 0) (zn (d3 p) 2) (zn (d3 p) 1) alpha (th src (sg_out src dst axis p))
                        (bj beta (snd p)) (th dst (fst p)) redux) (sg_xs src dst axis)).
Proof.
  intros Hm. unfold norm_slice_async.
  rewrite (checks_true _ _ (norm_slice_checks src dst axis HA HB)) by assumption. bnd.
  rewrite t_ntiles_eq by assumption. apply (slice_pairs src dst axis). intros i ts Hi.
  rewrite dst_steps by assumption.
  rewrite rd_grid by (assumption || apply Hm). bnd. apply for_map. intros j acc Hj.
  rewrite (sg_steps src dst axis i j) by (assumption || lia). cbv zeta. unfold bj. cbn [snd fst].
  destruct (Z.eqb_spec j 0); reflexivity.
Qed.

(** The kernels have the form expected by [reduce_runs]. *)
Lemma ksum_ext n (f g : Z -> T) : (forall l, 0 <= l < n -> f l = g l) -> ksum n f = ksum n g.
Proof. intros H. unfold ksum. apply fold_left_ext. intros a x Hx. apply zrange_In in Hx. rewrite H by assumption. reflexivity. Qed.
Lemma nsum_ext n (f g : Z -> T) : (forall l, 0 <= l < n -> f l = g l) -> nsum n f = nsum n g.
Proof. intros H. unfold nsum. apply fold_left_ext. intros a x Hx. apply zrange_In in Hx. rewrite H by assumption. reflexivity. Qed.

Definition f0 : Z -> T := fun _ => o_zero.
Theorem sum_slice_runs alpha beta s : slice_match src dst axis -> disj src dst -> stored KF s src -> stored KF s dst ->
  runs (sum_slice_async alpha src beta dst axis false) s (fun s' =>
    (forall idx, inb (t_shape dst) idx ->
       elem s' dst idx = fold_left (fun v j => kres alpha (bj beta j)
           (ksum (ax_len src axis j) (fun l => elem s src (ins axis (j * zn (t_base src) axis + l) idx))) v)
         (zrange (sg_n src axis)) (elem s dst idx)) /\
    frame [dst] s s').
Proof.
  intros Hm Hd S1 S2.
  apply (reduce_runs src dst axis HA HB Hm [src] (fun j => rmode false (bj beta j))
    (fun p => wrap2 (fun x d => k_sum_slice (zn (d3 p) 0) (zn (d3 p) 2) (zn (d3 p) 1) alpha x (bj beta (snd p)) d))
    (fun j fs v => kres alpha (bj beta j) (ksum (ax_len src axis j) (hd f0 fs)) v)).
  - intros t [<-|[]]. auto.
  - assumption.
  - rewrite sum_slice_submits by assumption. reflexivity.
  - intros j. apply rmode_cases.
  - intros j fs v v' E. apply rmode_W in E. unfold kres. rewrite E. reflexivity.
  - intros j fs gs v H. destruct H; cbn [hd]; [reflexivity|]. f_equal. apply ksum_ext. assumption.
  - intros i j ls d Hi Hj Hl HL Hdl. destruct ls as [|l [|]]; try discriminate.
    destruct (sg_sizes src dst axis HA HB Hm i j Hi Hj) as (D0 & D1 & D2 & _ & T1 & T2 & T3). cbv zeta in *.
    fold (d3 (i, j)) in D0, D1, D2, T1, T2, T3.
    cbn [map app snd hd]. cbn [wrap2]. rewrite k_sum_slice_ok; [|assumption..| |].
    + bnd. rewrite T1. unfold ax_len. rewrite <- T3. reflexivity.
    + rewrite HL by (left; reflexivity). assumption.
    + congruence.
Qed.

Theorem norm_slice_runs alpha beta s : slice_match src dst axis -> disj src dst -> stored KF s src -> stored KF s dst ->
  runs (norm_slice_async alpha src beta dst axis false) s (fun s' =>
    (forall idx, inb (t_shape dst) idx ->
       elem s' dst idx = fold_left (fun v j => nres alpha (bj beta j)
           (nsum (ax_len src axis j) (fun l => elem s src (ins axis (j * zn (t_base src) axis + l) idx))) v)
         (zrange (sg_n src axis)) (elem s dst idx)) /\
    frame [dst] s s').
Proof.
  intros Hm Hd S1 S2.
  apply (reduce_runs src dst axis HA HB Hm [src] (fun j => rmode false (bj beta j))
    (fun p => wrap2 (fun x d => k_norm_slice (zn (d3 p) 0) (zn (d3 p) 2) (zn (d3 p) 1) alpha x (bj beta (snd p)) d))
    (fun j fs v => nres alpha (bj beta j) (nsum (ax_len src axis j) (hd f0 fs)) v)).
  - intros t [<-|[]]. auto.
  - assumption.
  - rewrite norm_slice_submits by assumption. reflexivity.
  - intros j. apply rmode_cases.
  - intros j fs v v' E. apply rmode_W in E. unfold nres, norm_result. rewrite E. reflexivity.
  - intros j fs gs v H. destruct H; cbn [hd]; [reflexivity|]. f_equal. apply nsum_ext. assumption.
  - intros i j ls d Hi Hj Hl HL Hdl. destruct ls as [|l [|]]; try discriminate.
    destruct (sg_sizes src dst axis HA HB Hm i j Hi Hj) as (D0 & D1 & D2 & _ & T1 & T2 & T3). cbv zeta in *.
    fold (d3 (i, j)) in D0, D1, D2, T1, T2, T3.
    cbn [map app snd hd]. cbn [wrap2]. rewrite k_norm_slice_ok; [|assumption..| |].
    + bnd. rewrite T1. unfold ax_len. rewrite <- T3. reflexivity.
    + rewrite HL by (left; reflexivity). assumption.
    + congruence.
Qed.

Variable src2 : tensor.
Hypothesis (HC : wft src2).

Lemma sumprod_slice_submits alpha beta redux : slice_match src dst axis -> t_shape src2 = t_shape src -> t_base src2 = t_base src ->
  sumprod_slice_async alpha src src2 beta dst axis redux =
    Ok (map (fun p => sumprod_slice_submit (zn (d3 p) 0) (zn (d3 p) 2) (zn (d3 p) 1) alpha (th src (sg_out src dst axis p))
                        (th src2 (sg_out src dst axis p))
                        (bj beta (snd p)) (th dst (fst p)) redux) (sg_xs src dst axis)).
Proof.
  intros Hm E1 E2. unfold sumprod_slice_async.
  rewrite (checks_true _ _ (sumprod_slice_checks src src2 dst axis HA HC HB)) by auto. bnd.
  rewrite t_ntiles_eq by assumption. apply (slice_pairs src dst axis). intros i ts Hi.
  pose proof (zlen_gs src dst axis HA Hm) as Hg. pose proof (sg_n_pos src dst axis HA Hm) as Hn.
  assert (Hu : zlen (unoff (gridZ (t_shape dst) (t_base dst)) i) = zlen (t_shape src) - 1) by (rewrite zlen_unoff; assumption).
  pose proof (proj1 Hm) as Ha.
  rewrite get_tile_handle_ok by assumption. bnd.
  rewrite (t_grid_eq dst) by assumption. rewrite linear_to_index_ok by (auto using wf_pg). bnd.
  set (u := unoff (gridZ (t_shape dst) (t_base dst)) i) in *.
  (* the same index is built, with one more assignment *)
  pose proof (slice_index_ok src axis u HA Ha Hu) as SI. unfold slice_index in SI. rewrite t_ndim_eq in * by assumption.
  set (n := zlen (t_shape src)) in *.
  assert (Hz : zlen (zrep n 0) = n) by (apply zlen_zrep; lia).
  destruct (fill_lo u axis (zrep n 0)) as (v & E & Hv & Hvz); [lia|lia|]. rewrite E in SI |- *. bnd. rewrite bind_Ok in SI.
  assert (Ew : wr v axis 0 = Ok v).
  { destruct (wr_ok v axis 0) as (v' & E' & Hv' & Hz'); [lia|]. rewrite E'. f_equal. apply list_ext; [lia|].
    intros k Hk. rewrite Hz' by lia. destruct (Z.eqb_spec k axis) as [->|]; [|reflexivity].
    rewrite Hvz by lia. destruct (Z.ltb_spec axis axis); [lia|]. symmetry. apply zn_zrep. lia. }
  rewrite Ew. bnd. rewrite SI. bnd.
  assert (ST : forall b j, 0 <= j < sg_n src axis ->
    sumprod_slice_tile alpha src src2 b axis redux (ins axis j u) (th dst i) =
    Ok (sumprod_slice_submit (zn (d3 (i, j)) 0) (zn (d3 (i, j)) 2) (zn (d3 (i, j)) 1) alpha (th src (sg_out src dst axis (i, j)))
                        (th src2 (sg_out src dst axis (i, j))) b (th dst i) redux)).
  { intros b j Hj. unfold sumprod_slice_tile.
    pose proof (sg_bound src dst axis HA HB Hm i j Hi Hj) as Ho.
    assert (Ho2 : 0 <= sg_out src dst axis (i, j) < ntiles src2) by (rewrite (ntiles_ext src2 src); assumption).
    rewrite (t_grid_eq src) by assumption.
    rewrite index_to_linear_ok by (apply (sg_inb src dst axis); assumption). bnd.
    unfold sg_out in Ho, Ho2 |- *. cbn [fst snd] in Ho, Ho2 |- *. fold u in Ho, Ho2 |- *.
    rewrite !get_tile_handle_ok, get_tile_traits_ok by assumption. bnd. bnd. bnd.
    rewrite tile_mnk_ok by (rewrite zlen_tsh by assumption; lia). bnd. reflexivity. }
  rewrite ST by lia. bnd. rewrite get_tile_traits_ok by assumption. bnd. rewrite rd_grid by assumption. bnd.
  set (f := fun j => sumprod_slice_submit (zn (d3 (i, j)) 0) (zn (d3 (i, j)) 2) (zn (d3 (i, j)) 1) alpha (th src (sg_out src dst axis (i, j)))
                        (th src2 (sg_out src dst axis (i, j))) (bj beta j) (th dst i) redux).
  refine (for_first (sg_n src axis) _ f ts Hn _). intros j acc Hj. rewrite wr_ins by lia. bnd. rewrite ST by lia. bnd.
  do 2 f_equal. unfold f, bj. destruct (Z.eqb_spec j 0); [lia|]. reflexivity.
Qed.

Theorem sumprod_slice_runs alpha beta s : slice_match src dst axis -> t_shape src2 = t_shape src -> t_base src2 = t_base src ->
  disj src dst -> disj src2 dst -> stored KF s src -> stored KF s src2 -> stored KF s dst ->
  runs (sumprod_slice_async alpha src src2 beta dst axis false) s (fun s' =>
    (forall idx, inb (t_shape dst) idx ->
       elem s' dst idx = fold_left (fun v j => kres alpha (bj beta j)
           (ksum (ax_len src axis j) (fun l => o_mul (elem s src (ins axis (j * zn (t_base src) axis + l) idx))
                                               (elem s src2 (ins axis (j * zn (t_base src) axis + l) idx)))) v)
         (zrange (sg_n src axis)) (elem s dst idx)) /\
    frame [dst] s s').
Proof.
  intros Hm E1 E2 Hd Hd2 S1 S3 S2.
  apply (reduce_runs src dst axis HA HB Hm [src; src2] (fun j => rmode false (bj beta j))
    (fun p => wrap3 (fun a b d => k_sumprod_slice (zn (d3 p) 0) (zn (d3 p) 2) (zn (d3 p) 1) alpha a b (bj beta (snd p)) d))
    (fun j fs v => kres alpha (bj beta j) (ksum (ax_len src axis j) (fun l => o_mul (hd f0 fs l) (hd f0 (tl fs) l))) v)).
  - intros t [<-|[<-|[]]]; auto.
  - assumption.
  - rewrite sumprod_slice_submits by assumption. reflexivity.
  - intros j. apply rmode_cases.
  - intros j fs v v' E. apply rmode_W in E. unfold kres. rewrite E. reflexivity.
  - intros j fs gs v H. f_equal. destruct H as [|f g fs1 gs1 H1 [|f' g' fs2 gs2 H2 H]]; cbn [hd tl]; apply ksum_ext; intros l Hl.
    + reflexivity.
    + rewrite H1 by assumption. reflexivity.
    + rewrite H1, H2 by assumption. reflexivity.
  - intros i j ls d Hi Hj Hl HL Hdl. destruct ls as [|l [|l2 [|]]]; try discriminate.
    destruct (sg_sizes src dst axis HA HB Hm i j Hi Hj) as (D0 & D1 & D2 & _ & T1 & T2 & T3). cbv zeta in *.
    fold (d3 (i, j)) in D0, D1, D2, T1, T2, T3.
    cbn [map app snd hd tl]. cbn [wrap3]. rewrite k_sumprod_slice_ok; [|assumption..| | |].
    + bnd. rewrite T1. unfold ax_len. rewrite <- T3. reflexivity.
    + rewrite HL by (left; reflexivity). assumption.
    + rewrite HL by (right; left; reflexivity). assumption.
    + congruence.
Qed.
End Ops3.
