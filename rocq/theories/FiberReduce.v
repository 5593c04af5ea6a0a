(** * sum_fiber and sumprod_fiber, for any scalar operations *)
From Verif Require Import Base Spec Geometry Traits TraitsProofs Runtime Ops TensorSem ElemGeneric OneOut Concrete
  KernelsElem ElemOps Axis AccRuns Loops SliceOps SliceGeo SliceProofs SliceReduce FiberOps FiberGeo FiberProofs.

Lemma bind_cong {A B} (r : res A) (f g : A -> res B) : (forall x, f x = g x) -> bind r f = bind r g.
Proof. intros H. destruct r; [apply H|reflexivity|reflexivity]. Qed.

Section R.
Context {T : Type} {O : Ops T}.
Local Notation vec := (list T).
Variables (src dst : tensor) (axis b : Z).
Hypothesis (HA : wft src) (HB : wft dst).
Let d4 (i : Z) := dim4 axis b (tsh src i).
Let fo (i : Z) := fg_out src dst axis b i.

(** Offset, in tile i of src, of the (j, k)-th value contributing to element o of the dst tile. *)
Definition fpos (i o j k : Z) : Z :=
  k + zn (d4 i) 0 * (cz [zn (d4 i) 1; zn (d4 i) 3] 0 o + zn (d4 i) 1 * (j + zn (d4 i) 2 * cz [zn (d4 i) 1; zn (d4 i) 3] 1 o)).

Theorem freduce_runs (srcs : list tensor) (md : Z -> mode) (body : Z -> list (buf T) -> res (list (buf T)))
    (V : Z -> list (Z -> Z -> T) -> T -> T) s r : fiber_match src dst axis b ->
  (forall t, In t srcs -> wft t /\ t_shape t = t_shape src /\ t_base t = t_base src /\ disj t dst /\ stored KF s t) ->
  stored KF s dst ->
  r = Ok (map (fun i => mkTask (map (fun t => (th t i, MR)) srcs ++ [(th dst (fo i), md i)]) (body i)) (zrange (ntiles src))) ->
  (forall i, md i = MW \/ md i = MRW) ->
  (forall i fs v v', md i = MW -> V i fs v = V i fs v') ->
  (forall i fs gs v, Forall2 (fun f g => forall j k, 0 <= j < zn (d4 i) 2 -> 0 <= k < zn (d4 i) 0 -> f j k = g j k) fs gs -> V i fs v = V i gs v) ->
  (forall i (ls : list vec) d, 0 <= i < ntiles src ->
     List.length ls = List.length srcs -> (forall l, In l ls -> zlen l = tsz src i) ->
     zlen d = tsz dst (fo i) ->
     body i (map BF ls ++ [BF d]) = Ok (map BF ls ++ [BF (ztab (tsz dst (fo i)) (fun o =>
        V i (map (fun l j k => zn l (fpos i o j k)) ls) (zn d o)))])) ->
  runs r s (fun s' =>
    (forall idx, inb (t_shape dst) idx ->
       elem s' dst idx = fold_left (fun v i => V i (map (fun t j k => elem s t (eidx src i (fpos i (eoff dst idx) j k))) srcs) v)
          (filter (fun i => fo i =? etile dst idx) (zrange (ntiles src))) (elem s dst idx)) /\
    frame [dst] s s').
Proof.
  intros Hm Hs Sd Er Hmd Hw Hext Hb.
  eapply runs_weaken; [apply (acc_elem dst (zrange (ntiles src)) fo md
    (fun i => map (fun t => th t i) srcs) (fun _ => []) (fun _ => []) body
    (fun i b1 _ o v => V i (map (fun b j k => zn (fl b) (fpos i o j k)) b1) v))|].
  - assumption.
  - assumption.
  - rewrite Er. f_equal. apply map_ext. intros p. f_equal. unfold mk_acc. rewrite map_map. reflexivity.
  - intros i Hx. apply zrange_In in Hx. apply fg_bound; assumption.
  - intros x _. apply Hmd.
  - intros i h Hx [H|[[]|[]]]. apply in_map_iff in H as (t & <- & Ht).
    destruct (Hs t Ht) as (W & E1 & E2 & Dj & St). apply zrange_In in Hx.
    apply disj_notin; [assumption|assumption|]. rewrite (ntiles_ext t src) by assumption. assumption.
  - intros x b1 b2 o v v' _ E. apply Hw. assumption.
  - intros i st d sc Hx Ht Hl Hsc. apply zrange_In in Hx.
    destruct sc; [|discriminate]. exists []. split; [|reflexivity].
    assert (Hls : exists ls : list vec, map st (map (fun t => th t i) srcs) = map BF ls /\
       List.length ls = List.length srcs /\ forall l, In l ls -> zlen l = tsz src i).
    { clear Er Hb Hext Hw. induction srcs as [|t srcs IH].
      - exists []. repeat split. intros l [].
      - destruct IH as (ls & E & El & HL); [intros; apply Hs; right; assumption|].
        destruct (Hs t ltac:(left; reflexivity)) as (W & E1 & E2 & Dj & St).
        assert (Ho' : 0 <= i < ntiles t) by (rewrite (ntiles_ext t src); assumption).
        destruct (bufF s st t _ Ht St Ho') as (l & El' & Hll).
        exists (l :: ls). cbn [map]. rewrite El', E. split; [reflexivity|]. split; [simpl; congruence|].
        intros l' [<-|Hin]; [|apply HL; assumption]. rewrite Hll. apply tsz_ext; assumption. }
    destruct Hls as (ls & E & El & HL). rewrite E. cbn [map app]. rewrite Hb by assumption.
    do 4 f_equal. apply ztab_ext. intros o _. rewrite map_map. reflexivity.
  - intros s' _ [H1 H2]. split; [|assumption]. intros idx Hi. rewrite H1 by assumption.
    apply fold_left_ext. intros v i Hj. apply filter_In in Hj as [Hj Ej].
    apply zrange_In in Hj. apply Z.eqb_eq in Ej. rewrite !map_map. apply Hext.
    clear - Hs HA HB Hm Hi Hj Ej. induction srcs as [|t srcs IH]; [constructor|]. cbn [map]. constructor; [|apply IH; intros; apply Hs; right; assumption].
    intros j k Hjb Hkb. destruct (Hs t ltac:(left; reflexivity)) as (W & E1 & E2 & Dj & St).
    destruct (fg_up src dst axis b HA HB Hm idx i k j Hi Hj Ej Hkb Hjb) as (U1 & U2).
    fold (d4 i) in U1. fold (fpos i (eoff dst idx) j k) in U1.
    destruct (eidx_spec src i _ HA Hj U1) as (I1 & I2 & I3).
    unfold elem. rewrite (etile_ext t src), (eoff_ext t src) by assumption. rewrite I2, I3. reflexivity.
Qed.

Definition bi (beta : T) (i : Z) : T := if fg_first src axis b i then beta else o_one.

Lemma fiber_red_steps i {A} (K : handle -> handle -> TileTraits -> Z * Z * Z -> Z -> bool -> res A) : fiber_match src dst axis b -> 0 <= i < ntiles src ->
  (h <- get_tile_handle src i ;; tr <- get_tile_traits src i ;; v <- linear_to_index (t_grid src) i ;;
   w <- fiber_index src dst axis b v ;; h2 <- get_tile_handle_idx dst w ;; tr2 <- get_tile_traits_idx dst w ;;
   q <- rd (tt_ms tr2) 1 ;; mnk <- tile_mnk tr axis ;; f <- init_first (t_ndim src - b) axis v ;; K h h2 tr mnk (snd q) f) =
  K (th src i) (th dst (fo i)) (tt_of (tsh src i)) (zn (d4 i) 0, zn (d4 i) 2 * zn (d4 i) 3, zn (d4 i) 1) (zn (d4 i) 3) (fg_first src axis b i).
Proof.
  intros Hm Hi. pose proof (zlen_gb _ HA) as Hg.
  destruct (fg_sizes src dst axis b HA Hm i Hi) as (_ & _ & _ & _ & _ & _ & E1 & (x & E2)).
  rewrite get_tile_traits_ok, get_tile_handle_ok by assumption. bnd. bnd.
  rewrite t_grid_eq by assumption. rewrite linear_to_index_ok by (auto using wf_pg). bnd.
  rewrite (fiber_index_ok src dst axis b) by (try assumption; rewrite zlen_unoff; assumption). bnd.
  pose proof (fg_inb src dst axis b HA Hm i Hi) as Hin.
  rewrite get_tile_handle_idx_ok, get_tile_traits_idx_ok by assumption. bnd. bnd.
  assert (Et : tshape (t_shape dst) (t_base dst) (fib axis b (unoff (gridZ (t_shape src) (t_base src)) i)) = tsh dst (fo i)).
  { unfold tsh, fo, fg_out. rewrite unoff_off by assumption. reflexivity. }
  rewrite Et. unfold fo at 1. rewrite E2. bnd. rewrite E1. bnd. rewrite t_ndim_eq by assumption.
  destruct (fg_grid src dst axis b HA Hm i Hi) as (? & ? & ? & ? & _ & _ & _ & _ & _ & _ & _ & _ & Ef & _).
  rewrite Ef. bnd. reflexivity.
Qed.

Lemma sum_fiber_submits alpha beta redux : fiber_match src dst axis b ->
  sum_fiber_async alpha src beta dst axis b redux =
    Ok (map (fun i => sum_fiber_submit (zn (d4 i) 0) (zn (d4 i) 2) (zn (d4 i) 1) (zn (d4 i) 3) alpha (th src i) (bi beta i)
                        (th dst (fo i)) (if fg_first src axis b i then false else redux)) (zrange (ntiles src))).
Proof.
  intros Hm. unfold sum_fiber_async.
  rewrite (checks_true _ _ (sum_fiber_checks src dst axis b HA HB (proj1 Hm))) by assumption. bnd.
  rewrite t_ntiles_eq by assumption.
  apply (for_map (ntiles src) _ (fun i => sum_fiber_submit (zn (d4 i) 0) (zn (d4 i) 2) (zn (d4 i) 1) (zn (d4 i) 3) alpha (th src i) (bi beta i)
                        (th dst (fo i)) (if fg_first src axis b i then false else redux)) []). intros i ts Hi.
  pose proof (fiber_red_steps i (fun h h2 tr mnk bt (f : bool) =>
    let '(m, n, k) := mnk in
    Ok (ts ++ [if f then sum_fiber_submit m (n / bt) k bt alpha h beta h2 false
               else sum_fiber_submit m (n / bt) k bt alpha h o_one h2 redux])) Hm Hi) as E.
  cbv beta iota zeta in E.
  eapply eq_trans; [|eapply eq_trans; [exact E|]].
  - do 7 (apply bind_cong; intros ?). apply bind_cong. intros [[m n] k]. apply bind_cong. intros f. reflexivity.
  - destruct (fg_sizes src dst axis b HA Hm i Hi) as (_ & _ & D2 & D3 & _).
    fold (d4 i) in D2, D3. rewrite Z.div_mul by lia. unfold bi. destruct (fg_first src axis b i); reflexivity.
Qed.

Theorem sum_fiber_runs alpha beta s : fiber_match src dst axis b -> disj src dst -> stored KF s src -> stored KF s dst ->
  runs (sum_fiber_async alpha src beta dst axis b false) s (fun s' =>
    (forall idx, inb (t_shape dst) idx ->
       elem s' dst idx = fold_left (fun v i => fres alpha (bi beta i)
           (ksum2 (zn (d4 i) 2) (zn (d4 i) 0) (fun j k => elem s src (eidx src i (fpos i (eoff dst idx) j k)))) v)
         (filter (fun i => fo i =? etile dst idx) (zrange (ntiles src))) (elem s dst idx)) /\
    frame [dst] s s').
Proof.
  intros Hm Hd S1 S2.
  apply (freduce_runs [src] (fun i => rmode false (bi beta i))
    (fun i => wrap2 (fun x d => k_sum_fiber (zn (d4 i) 0) (zn (d4 i) 2) (zn (d4 i) 1) (zn (d4 i) 3) alpha x (bi beta i) d))
    (fun i fs v => fres alpha (bi beta i) (ksum2 (zn (d4 i) 2) (zn (d4 i) 0) (hd (fun _ _ => o_zero) fs)) v)).
  - assumption.
  - intros t [<-|[]]. auto.
  - assumption.
  - rewrite sum_fiber_submits by assumption. f_equal. apply map_ext. intros i. destruct (fg_first src axis b i); reflexivity.
  - intros j. apply rmode_cases.
  - intros j fs v v' E. apply rmode_W in E. unfold fres. rewrite E. reflexivity.
  - intros i fs gs v H. destruct H; cbn [hd]; [reflexivity|]. f_equal. apply ksum2_ext. assumption.
  - intros i ls d Hi Hl HL Hdl. destruct ls as [|l [|]]; try discriminate.
    destruct (fg_sizes src dst axis b HA Hm i Hi) as (D0 & D1 & D2 & D3 & T1 & T2 & _).
    fold (d4 i) in D0, D1, D2, D3, T1, T2. fold (fo i) in T2.
    cbn [map app hd]. cbn [wrap2]. rewrite k_sum_fiber_ok; [|assumption..| |].
    + bnd. rewrite T2. reflexivity.
    + rewrite HL by (left; reflexivity). assumption.
    + congruence.
Qed.
End R.

Section R1.
Context {T : Type} {O : Ops T}.
Local Notation vec := (list T).
Variables (src src2 dst : tensor) (axis : Z).
Hypothesis (HA : wft src) (HC : wft src2) (HB : wft dst).
Let d4 (i : Z) := dim4 axis 0 (tsh src i).
Let fo (i : Z) := fg_out src dst axis 0 i.

Lemma sumprod_fiber_checks : checks (t_shape src = t_shape src2 /\ fiber_match src dst axis 0)
  (sumprod_fiber_check src src2 dst axis).
Proof.
  unfold sumprod_fiber_check. rewrite !t_ndim_eq by assumption.
  apply (checks_iff (t_shape src = t_shape src2 /\ zlen (t_shape dst) = 1 /\ zlen (t_shape src) <> 0 /\ fiber_match src dst axis 0 /\ True)).
  { split; [tauto|]. intros (E & Hm). split; [assumption|]. destruct (id Hm) as (_ & Ha & E' & _).
    split; [rewrite E', zlen_fib by (lia || assumption); reflexivity|]. split; [lia|tauto]. }
  apply list_eqb_checks. intros _. apply checks_eq. intros E.
  apply checks_if; [intros X; apply Z.eqb_eq in X; lia|intros X; apply Z.eqb_neq in X; lia|]. intros _.
  apply fiber1_checks; auto using checks_ok.
Qed.

Lemma sumprod_fiber_submits alpha beta redux : fiber_match src dst axis 0 -> t_shape src2 = t_shape src -> t_base src2 = t_base src ->
  sumprod_fiber_async alpha src src2 beta dst axis redux =
    Ok (map (fun i => sumprod_fiber_submit (zn (d4 i) 0) (zn (d4 i) 2) (zn (d4 i) 1) alpha (th src i) (th src2 i) (bi src axis 0 beta i)
                        (th dst (fo i)) (if fg_first src axis 0 i then false else redux)) (zrange (ntiles src))).
Proof.
  intros Hm E1 E2. unfold sumprod_fiber_async. rewrite (checks_true _ _ sumprod_fiber_checks) by auto. bnd.
  rewrite t_ntiles_eq by assumption.
  apply (for_map (ntiles src) _ (fun i => sumprod_fiber_submit (zn (d4 i) 0) (zn (d4 i) 2) (zn (d4 i) 1) alpha (th src i) (th src2 i) (bi src axis 0 beta i)
                        (th dst (fo i)) (if fg_first src axis 0 i then false else redux)) []). intros i ts Hi.
  rewrite get_tile_handle_ok by assumption. bnd.
  rewrite get_tile_handle_ok by (auto; rewrite (ntiles_ext src2 src); assumption). bnd.
  rewrite get_tile_traits_ok by assumption. bnd.
  rewrite t_grid_eq by assumption. rewrite linear_to_index_ok by (auto using wf_pg). bnd.
  rewrite (fo1 dst src axis) by assumption. bnd.
  pose proof (fg_bound src dst axis 0 HA Hm i Hi) as Hfb.
  rewrite get_tile_handle_ok, get_tile_traits_ok by assumption. bnd. bnd.
  rewrite (mnk1 dst src axis) by assumption. bnd.
  destruct (fg_grid src dst axis 0 HA Hm i Hi) as (? & ? & ? & ? & _ & _ & _ & _ & _ & _ & _ & _ & Ef & _).
  rewrite Z.sub_0_r in Ef. rewrite t_ndim_eq by assumption. rewrite Ef. bnd. unfold bi.
  destruct (fg_first src axis 0 i); reflexivity.
Qed.

Theorem sumprod_fiber_runs alpha beta s : fiber_match src dst axis 0 -> t_shape src2 = t_shape src -> t_base src2 = t_base src ->
  disj src dst -> disj src2 dst -> stored KF s src -> stored KF s src2 -> stored KF s dst ->
  runs (sumprod_fiber_async alpha src src2 beta dst axis false) s (fun s' =>
    (forall idx, inb (t_shape dst) idx ->
       elem s' dst idx = fold_left (fun v i => spres alpha (bi src axis 0 beta i)
           (psum2 (zn (d4 i) 2) (zn (d4 i) 0) (fun j k =>
              o_mul (elem s src (eidx src i (fpos src axis 0 i (eoff dst idx) j k)))
                    (elem s src2 (eidx src i (fpos src axis 0 i (eoff dst idx) j k))))) v)
         (filter (fun i => fo i =? etile dst idx) (zrange (ntiles src))) (elem s dst idx)) /\
    frame [dst] s s').
Proof.
  intros Hm E1 E2 Hd Hd2 S1 S3 S2.
  apply (freduce_runs src dst axis 0 HA HB [src; src2] (fun i => rmode false (bi src axis 0 beta i))
    (fun i => wrap3 (fun x y d => k_sumprod_fiber (zn (d4 i) 0) (zn (d4 i) 2) (zn (d4 i) 1) alpha x y (bi src axis 0 beta i) d))
    (fun i fs v => spres alpha (bi src axis 0 beta i) (psum2 (zn (d4 i) 2) (zn (d4 i) 0)
       (fun j k => o_mul (hd (fun _ _ => o_zero) fs j k) (hd (fun _ _ => o_zero) (tl fs) j k))) v)).
  - assumption.
  - intros t [<-|[<-|[]]]; auto.
  - assumption.
  - rewrite sumprod_fiber_submits by assumption. f_equal. apply map_ext. intros i. destruct (fg_first src axis 0 i); reflexivity.
  - intros j. apply rmode_cases.
  - intros j fs v v' E. apply rmode_W in E. unfold spres. rewrite E. reflexivity.
  - intros i fs gs v H. f_equal. destruct H as [|f g fs1 gs1 H1 [|f' g' fs2 gs2 H2 H]]; cbn [hd tl]; apply psum2_ext; intros j k Hj Hk.
    + reflexivity.
    + rewrite H1 by assumption. reflexivity.
    + rewrite H1, H2 by assumption. reflexivity.
  - intros i ls d Hi Hl HL Hdl. destruct ls as [|l [|l2 [|]]]; try discriminate.
    destruct (sizes1 dst src axis HA i Hm Hi) as (D0 & D1 & D2 & T1 & T2 & Hfb).
    fold (d4 i) in D0, D1, D2, T1, T2.
    cbn [map app hd tl]. cbn [wrap3]. rewrite k_sumprod_fiber_ok; [|assumption..| | |].
    + bnd. rewrite T2. do 5 f_equal. apply ztab_ext. intros o Ho.
      assert (Eo : cz [zn (d4 i) 1; zn (d4 i) 3] 0 o = o /\ cz [zn (d4 i) 1; zn (d4 i) 3] 1 o = 0).
      { destruct (cz2 (zn (d4 i) 1) (zn (d4 i) 3) o 0) as (C0 & C1 & _); [assumption| |].
        - unfold d4. rewrite (d4_3 dst src axis) by assumption. lia.
        - rewrite Z.mul_0_r, Z.add_0_r in C0, C1. auto. }
      destruct Eo as [Eo0 Eo1]. unfold fpos. fold (d4 i). rewrite Eo0, Eo1. rewrite !Z.mul_0_r.
      f_equal. apply psum2_ext. intros j k Hj Hk. rewrite Z.add_0_r. reflexivity.
    + rewrite HL by (left; reflexivity). assumption.
    + rewrite HL by (right; left; reflexivity). assumption.
    + congruence.
Qed.
End R1.
