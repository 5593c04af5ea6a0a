(** * scatter, gather, tile copy_intersection: the submitted tasks and their result *)
From Verif Require Import Base Spec Geometry Traits TraitsProofs Axis Loops Runtime Ops TensorSem ElemOps ElemGeneric OneOut AccRuns
  Sequence Serial NdRuns GemmRuns SubcopyOps SubcopyKernel SubcopyLoops SubcopyRuns.

(** ** A tensor of one tile *)
Lemma prod_one l : pos l -> prodZ l = 1 -> forall k, 0 <= k < zlen l -> zn l k = 1.
Proof.
  induction l as [|x l IH]; intros Hp E k Hk; [unfold zlen in Hk; cbn [List.length] in Hk; lia|].
  inversion Hp as [|? ? Hx Hl]; subst. cbn [prodZ] in E. pose proof (prodZ_pos l Hl) as Hpl.
  assert (x = 1 /\ prodZ l = 1) as [-> E2] by nia. rewrite zlen_cons in Hk.
  destruct (Z.eq_dec k 0) as [->|Hne]; [reflexivity|].
  replace (zn (1 :: l) k) with (zn l (k - 1)); [apply IH; auto; lia|]. unfold zn. replace (Z.to_nat k) with (S (Z.to_nat (k - 1))) by lia. reflexivity.
Qed.

Section One.
Variable t : tensor.
Hypothesis (Ht : wft t) (H1 : ntiles t = 1).
Lemma one_base k : 0 <= k < zlen (t_shape t) -> zn (t_shape t) k <= zn (t_base t) k.
Proof.
  intros Hk. pose proof (prod_one _ (wf_pg _ Ht) H1 k) as E. rewrite zlen_gridZ in E by apply (wf_len _ Ht). specialize (E Hk).
  unfold gridZ in E. rewrite zn_map2 in E by (rewrite ?(wf_len _ Ht); lia).
  assert (Hb : 0 < zn (t_base t) k) by (apply (proj1 (pos_zn _) (wf_pb _ Ht)); rewrite (wf_len _ Ht); lia).
  assert (Hb0 : zn (t_base t) k <> 0) by lia.
  pose proof (Z.div_mod (zn (t_shape t) k + zn (t_base t) k - 1) (zn (t_base t) k) Hb0) as Dm.
  pose proof (Z.mod_pos_bound (zn (t_shape t) k + zn (t_base t) k - 1) (zn (t_base t) k) Hb) as Db. rewrite E in Dm. lia.
Qed.
Lemma one_tile idx : inb (t_shape t) idx -> tile_of (t_base t) idx = zrep (zlen (t_shape t)) 0 /\ in_tile (t_base t) idx = idx.
Proof.
  intros Hi. destruct (proj1 (TraitsProofs.inb_zn _ _) Hi) as [Li Hx]. pose proof (wf_len _ Ht) as Lb.
  pose proof (zlen_nonneg (t_shape t)) as Nn. split; apply list_ext.
  - rewrite zlen_tile_of, zlen_zrep; lia.
  - rewrite zlen_tile_of by lia. intros k Hk. rewrite zn_tile_of, zn_zrep by lia. pose proof (one_base k ltac:(lia)).
    specialize (Hx k ltac:(lia)). apply Z.div_small. lia.
  - rewrite zlen_in_tile; lia.
  - rewrite zlen_in_tile by lia. intros k Hk. rewrite zn_in_tile by lia. pose proof (one_base k ltac:(lia)).
    specialize (Hx k ltac:(lia)). apply Z.mod_small. lia.
Qed.
Lemma one_tshape : tshape (t_shape t) (t_base t) (zrep (zlen (t_shape t)) 0) = t_shape t.
Proof.
  pose proof (zlen_nonneg (t_shape t)) as Nn. pose proof (wf_len _ Ht) as Lb.
  assert (Lz : zlen (zrep (zlen (t_shape t)) 0) = zlen (t_shape t)) by (rewrite zlen_zrep; lia).
  apply list_ext; [rewrite zlen_tshape; lia|]. rewrite zlen_tshape by lia. intros k Hk.
  rewrite zn_tshape by lia. rewrite zn_zrep by lia. pose proof (one_base k Hk). lia.
Qed.
Lemma one_unoff : unoff (gridZ (t_shape t) (t_base t)) 0 = zrep (zlen (t_shape t)) 0.
Proof.
  pose proof (zlen_nonneg (t_shape t)) as Nn. assert (Lg : zlen (gridZ (t_shape t) (t_base t)) = zlen (t_shape t)) by (apply zlen_gridZ, (wf_len _ Ht)).
  pose proof (unoff_inb _ 0 (wf_pg _ Ht) ltac:(fold (ntiles t); lia)) as Hu. apply TraitsProofs.inb_zn in Hu as [Lu Hu].
  apply list_ext; [rewrite zlen_zrep; lia|]. intros k Hk. rewrite zn_zrep by lia.
  specialize (Hu k ltac:(lia)). rewrite (prod_one _ (wf_pg _ Ht) H1) in Hu by lia. lia.
Qed.
Lemma one_tsh : tsh t 0 = t_shape t.
Proof. unfold tsh. rewrite one_unoff. apply one_tshape. Qed.
Lemma one_tsz : tsz t 0 = prodZ (t_shape t).
Proof. unfold tsz. rewrite one_tsh. reflexivity. Qed.
Lemma one_etile idx : inb (t_shape t) idx -> etile t idx = 0.
Proof. intros Hi. pose proof (etile_bound t idx Ht Hi). lia. Qed.
Lemma one_eoff idx : inb (t_shape t) idx -> eoff t idx = off (t_shape t) idx.
Proof. intros Hi. unfold eoff. destruct (one_tile idx Hi) as [-> ->]. rewrite one_tshape. reflexivity. Qed.
End One.

(** Where a tile lies in the tensor. *)
Definition tstart (t : tensor) (i : Z) : list Z := map2 Z.mul (unoff (gridZ (t_shape t) (t_base t)) i) (t_base t).

Section Start.
Variable t : tensor.
Hypothesis Ht : wft t.
Lemma zlen_ugrid i : zlen (unoff (gridZ (t_shape t) (t_base t)) i) = zlen (t_shape t).
Proof. rewrite zlen_unoff. apply zlen_gridZ, (wf_len _ Ht). Qed.
Lemma zlen_tstart i : zlen (tstart t i) = zlen (t_shape t).
Proof. unfold tstart. rewrite zlen_map2; rewrite zlen_ugrid; [reflexivity|]. rewrite (wf_len _ Ht). reflexivity. Qed.
Lemma zn_tstart i k : 0 <= k < zlen (t_shape t) -> zn (tstart t i) k = zn (unoff (gridZ (t_shape t) (t_base t)) i) k * zn (t_base t) k.
Proof. intros Hk. unfold tstart. apply zn_map2; rewrite zlen_ugrid; [rewrite (wf_len _ Ht); reflexivity|assumption]. Qed.
Lemma zlen_tsh i : zlen (tsh t i) = zlen (t_shape t).
Proof. unfold tsh. apply zlen_tshape; [apply (wf_len _ Ht)|apply zlen_ugrid]. Qed.
Lemma tstart_box i : 0 <= i < ntiles t -> box_in (t_shape t) (tstart t i) (tsh t i).
Proof.
  intros Hi. unfold box_in. rewrite zlen_tstart, zlen_tsh. split; [reflexivity|]. split; [reflexivity|]. intros k Hk.
  destruct (proj1 (TraitsProofs.inb_zn _ _) (unoff_inb _ i (wf_pg _ Ht) Hi)) as [Lu Hu].
  rewrite zlen_gridZ in Hu by apply (wf_len _ Ht). specialize (Hu k Hk).
  assert (Hb : 0 < zn (t_base t) k) by (apply (proj1 (pos_zn _) (wf_pb _ Ht)); rewrite (wf_len _ Ht); lia).
  pose proof (proj1 (pos_zn _) (tsh_pos t i Ht Hi) k ltac:(rewrite zlen_tsh; lia)) as Hp.
  rewrite zn_tstart by lia. unfold tsh in *. rewrite zn_tshape in * by (rewrite ?(wf_len _ Ht), ?zlen_ugrid; lia).
  set (u := zn (unoff _ i) k) in *. set (b := zn (t_base t) k) in *. split; [nia|]. lia.
Qed.
Lemma tstart_mem i idx : 0 <= i < ntiles t -> inb (t_shape t) idx ->
  (inb (tsh t i) (map2 Z.sub idx (tstart t i)) <-> i = etile t idx).
Proof.
  intros Hi Hidx. destruct (proj1 (TraitsProofs.inb_zn _ _) Hidx) as [Li Hx]. pose proof (wf_len _ Ht) as Lb.
  assert (Key : forall k, 0 <= k < zlen (t_shape t) ->
    (0 <= zn (map2 Z.sub idx (tstart t i)) k < zn (tsh t i) k <-> zn (unoff (gridZ (t_shape t) (t_base t)) i) k = zn idx k / zn (t_base t) k)).
  { intros k Hk. rewrite zn_map2 by (rewrite ?zlen_tstart; lia). rewrite zn_tstart by lia. unfold tsh.
    rewrite zn_tshape by (rewrite ?zlen_ugrid; lia). specialize (Hx k Hk).
    assert (Hb : 0 < zn (t_base t) k) by (apply (proj1 (pos_zn _) (wf_pb _ Ht)); lia).
    assert (Hb0 : zn (t_base t) k <> 0) by lia.
    pose proof (Z.div_mod (zn idx k) (zn (t_base t) k) Hb0) as Dm. pose proof (Z.mod_pos_bound (zn idx k) (zn (t_base t) k) Hb) as Db.
    set (u := zn (unoff _ i) k) in *. set (b := zn (t_base t) k) in *. set (x := zn idx k) in *. set (q := x / b) in *. split.
    - intros Hr. assert (u * b <= x < (u + 1) * b) by lia. nia.
    - intros ->. lia. }
  rewrite TraitsProofs.inb_zn. rewrite zlen_tsh, zlen_map2 by (rewrite zlen_tstart; lia). split.
  - intros [_ H]. unfold etile. rewrite <- (off_unoff (gridZ (t_shape t) (t_base t)) i) at 1 by (assumption || apply wf_pg; assumption). f_equal.
    apply list_ext; [rewrite zlen_ugrid, zlen_tile_of; lia|]. rewrite zlen_ugrid. intros k Hk. rewrite zn_tile_of by lia. apply Key; auto.
  - intros E. split; [lia|]. intros k Hk. apply Key; [assumption|]. subst i. unfold etile.
    rewrite unoff_off by (apply tile_of_inb; [apply wf_len'; assumption|apply wf_pb; assumption|assumption]). rewrite zn_tile_of by lia. reflexivity.
Qed.
Lemma tstart_eoff idx : inb (t_shape t) idx -> off (tsh t (etile t idx)) (map2 Z.sub idx (tstart t (etile t idx))) = eoff t idx.
Proof.
  intros Hidx. destruct (proj1 (TraitsProofs.inb_zn _ _) Hidx) as [Li Hx]. pose proof (wf_len _ Ht) as Lb.
  rewrite tsh_etile by assumption. unfold eoff. f_equal.
  apply list_ext; [rewrite zlen_map2, zlen_in_tile; rewrite ?zlen_tstart; lia|]. rewrite zlen_map2 by (rewrite zlen_tstart; lia).
  intros k Hk. rewrite zn_map2 by (rewrite ?zlen_tstart; lia). rewrite zn_tstart by lia. rewrite zn_in_tile by lia.
  unfold etile. rewrite unoff_off by (apply tile_of_inb; [apply wf_len'; assumption|apply wf_pb; assumption|assumption]).
  rewrite zn_tile_of by lia.
  assert (Hb0 : zn (t_base t) k <> 0) by (pose proof (proj1 (pos_zn _) (wf_pb _ Ht) k ltac:(lia)); lia). rewrite Z.mod_eq by assumption. lia.
Qed.
(** The loop computing the start of a tile. *)
Lemma tstart_loop i v : zlen v = zlen (t_shape t) ->
  for_ 0 (zlen (t_shape t)) (fun k sts => x <- rd (unoff (gridZ (t_shape t) (t_base t)) i) k ;; b <- rd (t_base t) k ;; wr sts k (x * b)) v =
  Ok (tstart t i).
Proof.
  intros Lv. pose proof (zlen_nonneg (t_shape t)) as Nn. pose proof (wf_len _ Ht) as Lb. pose proof (zlen_ugrid i) as Lu.
  set (g := fun k => zn (unoff (gridZ (t_shape t) (t_base t)) i) k * zn (t_base t) k).
  edestruct (for_inv (fun k st => st = tabk (zlen (t_shape t)) k g (zn v)) 0 (zlen (t_shape t))) as (st & E & I); [lia| | |rewrite E, I].
  - rewrite tabk_0. symmetry. rewrite <- (ztab_zn v) at 2. rewrite Lv. reflexivity.
  - intros k st Hk ->. cbv beta. rewrite !rd_ok by lia. do 2 bnd. rewrite wr_tabk by (reflexivity || lia). eauto.
  - rewrite tabk_n. f_equal. symmetry. rewrite <- (ztab_zn (tstart t i)). rewrite zlen_tstart. apply ztab_ext.
    intros k Hk. apply zn_tstart. assumption.
Qed.
Lemma ugrid_odo i : 0 < zlen (t_shape t) -> 0 <= i -> i + 1 < ntiles t ->
  odo_next (zrep (zlen (t_shape t)) 0) (tt_shape (t_grid t)) (unoff (gridZ (t_shape t) (t_base t)) i) =
  Ok (unoff (gridZ (t_shape t) (t_base t)) (i + 1)).
Proof.
  intros Hp Hi Hi1. set (g := gridZ (t_shape t) (t_base t)) in *. assert (Lg : zlen g = zlen (t_shape t)) by (apply zlen_gridZ, (wf_len _ Ht)).
  assert (Z0 : forall l, zlen l = zlen (t_shape t) -> map2 Z.add (zrep (zlen (t_shape t)) 0) l = l).
  { intros l Ll. apply list_ext; [rewrite zlen_map2; rewrite zlen_zrep; lia|]. rewrite zlen_map2 by (rewrite zlen_zrep; lia).
    rewrite zlen_zrep by lia. intros k Hk. rewrite zn_map2 by (rewrite zlen_zrep; lia). rewrite zn_zrep by lia. lia. }
  rewrite <- (Z0 (unoff g i)) by (rewrite zlen_unoff; assumption). rewrite (t_grid_eq _ Ht). cbn [tt_shape tt_of]. fold g.
  rewrite (odo_next_ok (zrep (zlen (t_shape t)) 0) g).
  - rewrite Z0 by (rewrite zlen_unoff; assumption). reflexivity.
  - rewrite zlen_zrep; lia.
  - apply wf_pg. assumption.
  - rewrite Z0; auto.
  - assumption.
  - assumption.
Qed.
End Start.

Lemma ntiles_ndim t : wft t -> ntiles t <> 1 -> 0 < zlen (t_shape t).
Proof.
  intros Ht Hn. pose proof (zlen_nonneg (t_shape t)). destruct (Z.eq_dec (zlen (t_shape t)) 0) as [E|]; [|lia].
  exfalso. apply Hn. unfold ntiles. destruct (t_shape t); [|rewrite zlen_cons in E; pose proof (zlen_nonneg l); lia]. reflexivity.
Qed.

Section Sg.
Context {T : Type} {DT : Dflt T}.

(** ** scatter *)
Section Scatter.
Variables (src dst : tensor) (scratch : handle) (cl : sc_codelet).
Hypothesis (Hs : wft src) (Hd : wft dst) (H1 : ntiles src = 1) (Hsh : t_shape src = t_shape dst) (Hnt : ntiles dst <> 1).
Notation n := (zlen (t_shape dst)).

Definition scat_task (i : Z) : task T :=
  mkTask (mk_acc [th src 0] (th dst i) MW [] [scratch])
    (subcopy_cpu cl n (tstart dst i) (strides (t_shape src)) (tsh dst i) (zrep n 0) (strides (tsh dst i))).

Lemma scatter_tasks : scatter_async cl src dst scratch = Ok (map scat_task (zrange (ntiles dst))).
Proof.
  pose proof (ntiles_ndim dst Hd Hnt) as Np. pose proof (ntiles_pos dst Hd) as Ntp. pose proof (wf_len _ Hd) as Lb.
  unfold scatter_async. rewrite (t_ntiles_eq _ Hs), (t_ntiles_eq _ Hd), H1, Z.eqb_refl. cbn [negb throw_if].
  rewrite (proj2 (list_eqb_Z _ _) Hsh). cbn [negb throw_if].
  rewrite get_tile_handle_ok, get_tile_traits_ok by (assumption || lia). do 2 bnd. rewrite one_tsh by assumption.
  destruct (Z.eqb_spec (ntiles dst) 1) as [E1|_]; [contradiction|].
  rewrite (t_ndim_eq _ Hs), Hsh.
  assert (G0 : zrep n 0 = unoff (gridZ (t_shape dst) (t_base dst)) 0).
  { symmetry. pose proof (add_unoff0 _ (wf_pg _ Hd) (zrep n 0)) as A. rewrite zlen_gridZ, zlen_zrep in A by (lia || apply (wf_len _ Hd)).
    specialize (A eq_refl). rewrite <- A. pose proof (zlen_ugrid dst Hd 0) as L0. apply list_ext; [rewrite zlen_map2, zlen_zrep; rewrite ?zlen_zrep; lia|].
    rewrite L0. intros k Hk. rewrite zn_map2 by (rewrite ?zlen_zrep; lia). rewrite zn_zrep by lia. lia. }
  edestruct (for_inv (fun i (st : list Z * list Z * list (task T)) =>
      fst (fst st) = unoff (gridZ (t_shape dst) (t_base dst)) (Z.min i (ntiles dst - 1)) /\ zlen (snd (fst st)) = n /\
      snd st = map scat_task (zrange i)) 0 (ntiles dst)) as (st & E & I);
    [lia| | |rewrite E; bnd; destruct st as [[a b] c]; destruct I as (_ & _ & I); cbn [snd] in I; rewrite I; reflexivity].
  - cbn [fst snd]. replace (Z.min 0 (ntiles dst - 1)) with 0 by lia. split; [assumption|]. split; [rewrite zlen_zrep; lia|reflexivity].
  - intros i [[a b] c] Hi. cbn [fst snd]. intros (-> & Lv & ->). cbv beta iota. replace (Z.min i (ntiles dst - 1)) with i by lia.
    rewrite get_tile_handle_ok, get_tile_traits_ok by (assumption || lia). do 2 bnd.
    rewrite tstart_loop by assumption. bnd. cbv zeta.
    assert (Eo : (if i =? ntiles dst - 1 then Ok (unoff (gridZ (t_shape dst) (t_base dst)) i)
        else odo_next (zrep n 0) (tt_shape (t_grid dst)) (unoff (gridZ (t_shape dst) (t_base dst)) i)) =
        Ok (unoff (gridZ (t_shape dst) (t_base dst)) (Z.min (i + 1) (ntiles dst - 1)))).
    { destruct (Z.eqb_spec i (ntiles dst - 1)) as [Ei|Ei].
      - replace (Z.min (i + 1) (ntiles dst - 1)) with i by lia. reflexivity.
      - replace (Z.min (i + 1) (ntiles dst - 1)) with (i + 1) by lia. apply ugrid_odo; auto; lia. }
    rewrite Eo. bnd. eexists. split; [reflexivity|]. cbn [fst snd]. split; [reflexivity|]. split; [apply zlen_tstart; assumption|].
    rewrite zrange_succ, map_app by lia. cbn [map]. f_equal. unfold scat_task, subcopy_submit, mk_acc. cbn [map app].
    rewrite !tt_stride_of. cbn [tt_shape tt_of]. rewrite Hsh. reflexivity.
Qed.
End Scatter.

Lemma scatter_runs src dst scratch s : wft src -> wft dst -> ntiles src = 1 -> t_shape src = t_shape dst -> ntiles dst <> 1 ->
  stored KF s src -> stored KF s dst -> disj src dst -> ~ In scratch (tile_handles dst) -> ty (s scratch) = (KI, 2 * zlen (t_shape dst)) ->
  runs (Ok (map (scat_task src dst scratch ScOwn) (zrange (ntiles dst)))) s (fun s' =>
    (forall idx, inb (t_shape dst) idx -> elem s' dst idx = elem s src idx) /\ frame [dst] s s').
Proof.
  intros Hs Hd H1 Hsh Hnt Ss Sd Hdis Hscr Hty. pose proof (ntiles_ndim dst Hd Hnt) as Np.
  eapply runs_weaken; [apply (acc_elem dst (zrange (ntiles dst)) (fun i => i) (fun _ => MW) (fun _ => [th src 0]) (fun _ => []) (fun _ => [scratch])
    (fun i => subcopy_cpu ScOwn (zlen (t_shape dst)) (tstart dst i) (strides (t_shape src)) (tsh dst i) (zrep (zlen (t_shape dst)) 0) (strides (tsh dst i)))
    (fun i pre post o v => match pre with b :: _ => zn (fl b) (off (t_shape src) (map2 Z.add (tstart dst i) (unoff (tsh dst i) o))) | [] => dflt end) s);
    try assumption|].
  - reflexivity.
  - intros i Hi. apply zrange_In in Hi. assumption.
  - auto.
  - intros i h _ [[<-|[]]|[[]|[<-|[]]]].
    + intros Hin. apply (Hdis _ (th_In src 0 Hs ltac:(lia)) Hin).
    + assumption.
  - intros i b1 b2 o v v' _ _. reflexivity.
  - intros i st d sc Hi Hti Hd' Hsc. apply zrange_In in Hi. cbn [map app].
    destruct sc as [|c [|]]; [discriminate| |discriminate]. cbn [map] in Hsc. inversion Hsc as [Hc]. rewrite Hty in Hc.
    destruct (ty_BI _ _ Hc) as (tmp & -> & Lt).
    assert (Et : ty (st (th src 0)) = (KF, prodZ (t_shape src))) by (rewrite Hti, (Ss 0), one_tsz by (assumption || lia); reflexivity).
    destruct (ty_BF _ _ Et) as (a & Ea & La). rewrite Ea.
    pose proof (tstart_box dst Hd i Hi) as Bx.
    assert (Bd : box_in (tsh dst i) (zrep (zlen (t_shape dst)) 0) (tsh dst i)).
    { unfold box_in. rewrite zlen_tsh, zlen_zrep by (assumption || lia). split; [reflexivity|]. split; [reflexivity|].
      intros k Hk. rewrite zn_zrep by lia. assert (Hk2 : 0 <= k < zlen (tsh dst i)) by (rewrite zlen_tsh; assumption). pose proof (proj1 (pos_zn _) (tsh_pos dst i Hd Hi) k Hk2). lia. }
    destruct (k_subcopy_ok (zlen (t_shape dst)) (t_shape src) (tsh dst i) (tstart dst i) (zrep (zlen (t_shape dst)) 0) (tsh dst i) a d tmp)
      as (tmp' & Lt' & E); try assumption; try lia.
    + rewrite Hsh. reflexivity.
    + apply zlen_tsh. assumption.
    + rewrite Hsh. assumption.
    + exists [BI tmp']. split; [|reflexivity]. unfold subcopy_cpu. rewrite E. bnd. do 4 f_equal.
      apply ztab_ext. intros o Ho. cbn [fl].
      pose proof (unoff_inb _ o (tsh_pos dst i Hd Hi) Ho) as Hu.
      assert (Er : map2 Z.sub (unoff (tsh dst i) o) (zrep (zlen (t_shape dst)) 0) = unoff (tsh dst i) o).
      { assert (Lu : zlen (unoff (tsh dst i) o) = zlen (t_shape dst)) by (rewrite zlen_unoff, zlen_tsh by assumption; reflexivity).
        apply list_ext; [rewrite zlen_map2; rewrite ?zlen_zrep; lia|]. rewrite zlen_map2 by (rewrite zlen_zrep; lia).
        intros k Hk. rewrite zn_map2 by (rewrite ?zlen_zrep; lia). rewrite zn_zrep by lia. lia. }
      rewrite Er, (proj2 (inbb_spec _ _) Hu). reflexivity.
  - intros s' _ [G1 G2]. split; [|assumption]. intros idx Hidx. rewrite (G1 idx Hidx).
    pose proof (etile_bound dst idx Hd Hidx) as He.
    rewrite (fold_single _ _ (etile dst idx)).
    + cbn [map]. unfold elem.
      assert (Hidx' : inb (t_shape src) idx) by (rewrite Hsh; assumption).
      rewrite (one_etile src Hs H1 idx Hidx'), (one_eoff src Hs H1 idx Hidx'). f_equal. f_equal.
      replace (unoff (tsh dst (etile dst idx)) (eoff dst idx)) with (map2 Z.sub idx (tstart dst (etile dst idx))).
      * apply add_sub. rewrite zlen_tstart by assumption. apply inb_zlen. assumption.
      * rewrite <- (tstart_eoff dst Hd idx Hidx). rewrite unoff_off; [reflexivity|]. apply tstart_mem; auto.
    + apply filter_single; [apply NoDup_zrange|apply zrange_In; assumption|apply Z.eqb_refl|].
      intros y _ Hy. apply Z.eqb_eq in Hy. assumption.
Qed.

(** ** gather *)
Section Gather.
Variables (src dst : tensor) (scratch : handle) (cl : sc_codelet).
Hypothesis (Hs : wft src) (Hd : wft dst) (H1 : ntiles dst = 1) (Hsh : t_shape src = t_shape dst) (Hnt : ntiles src <> 1).
Notation n := (zlen (t_shape src)).

Definition gath_md (i : Z) : mode := if i =? 0 then MW else MRW.
Definition gath_task (i : Z) : task T :=
  mkTask (mk_acc [th src i] (th dst 0) (gath_md i) [] [scratch])
    (subcopy_cpu cl n (zrep n 0) (strides (tsh src i)) (tsh src i) (tstart src i) (strides (t_shape dst))).

Lemma ugrid0 : zrep n 0 = unoff (gridZ (t_shape src) (t_base src)) 0.
Proof.
  pose proof (ntiles_ndim src Hs Hnt) as Np.
  symmetry. pose proof (add_unoff0 _ (wf_pg _ Hs) (zrep n 0)) as A. rewrite zlen_gridZ, zlen_zrep in A by (lia || apply (wf_len _ Hs)).
  specialize (A eq_refl). rewrite <- A. pose proof (zlen_ugrid src Hs 0) as L0. apply list_ext; [rewrite zlen_map2, zlen_zrep; rewrite ?zlen_zrep; lia|].
  rewrite L0. intros k Hk. rewrite zn_map2 by (rewrite ?zlen_zrep; lia). rewrite zn_zrep by lia. lia.
Qed.
Lemma tstart0 : tstart src 0 = zrep n 0.
Proof.
  pose proof (ntiles_ndim src Hs Hnt) as Np. apply list_ext; [rewrite zlen_tstart, zlen_zrep by (assumption || lia); reflexivity|].
  rewrite zlen_tstart by assumption. intros k Hk. rewrite zn_tstart by assumption. rewrite <- ugrid0, zn_zrep by lia. lia.
Qed.

Lemma gather_tasks : gather_async cl src dst scratch = Ok (map gath_task (zrange (ntiles src))).
Proof.
  pose proof (ntiles_ndim src Hs Hnt) as Np. pose proof (ntiles_pos src Hs) as Ntp. pose proof (wf_len _ Hs) as Lb.
  unfold gather_async. rewrite (t_ntiles_eq _ Hs), (t_ntiles_eq _ Hd), H1, Z.eqb_refl. cbn [negb throw_if].
  rewrite (proj2 (list_eqb_Z _ _) Hsh). cbn [negb throw_if].
  rewrite get_tile_handle_ok, get_tile_traits_ok by (assumption || lia). do 2 bnd. rewrite (one_tsh dst) by assumption.
  destruct (Z.eqb_spec (ntiles src) 1) as [E1|_]; [contradiction|].
  rewrite (t_ndim_eq _ Hs). rewrite get_tile_handle_ok, get_tile_traits_ok by (assumption || lia). do 2 bnd.
  edestruct (for_inv (fun i (st : list Z * list Z * list (task T)) =>
      fst (fst st) = unoff (gridZ (t_shape src) (t_base src)) (i - 1) /\ zlen (snd (fst st)) = n /\
      snd st = map gath_task (zrange i)) 1 (ntiles src)) as (st & E & I);
    [lia| | |rewrite E; bnd; destruct st as [[a b] c]; destruct I as (_ & _ & I); cbn [snd] in I; rewrite I; reflexivity].
  - cbn [fst snd]. split; [apply ugrid0|]. split; [rewrite zlen_zrep; lia|].
    change (zrange 1) with [0]. cbn [map]. f_equal. unfold gath_task, subcopy_submit, mk_acc, gath_md. cbn [map app Z.eqb].
    rewrite !tt_stride_of. cbn [tt_shape tt_of]. rewrite tstart0. reflexivity.
  - intros i [[a b] c] Hi. cbn [fst snd]. intros (-> & Lv & ->). cbv beta iota.
    rewrite ugrid_odo by (assumption || lia). bnd. replace (i - 1 + 1) with i by lia.
    rewrite get_tile_handle_ok, get_tile_traits_ok by (assumption || lia). do 2 bnd.
    rewrite tstart_loop by assumption. bnd.
    eexists. split; [reflexivity|]. cbn [fst snd]. split; [f_equal; lia|]. split; [apply zlen_tstart; assumption|].
    rewrite zrange_succ, map_app by lia. cbn [map]. f_equal. unfold gath_task, subcopy_submit, mk_acc, gath_md. cbn [map app].
    destruct (Z.eqb_spec i 0) as [E0|_]; [lia|].
    rewrite !tt_stride_of. cbn [tt_shape tt_of]. reflexivity.
Qed.
End Gather.

Lemma gather_runs src dst scratch s : wft src -> wft dst -> ntiles dst = 1 -> t_shape src = t_shape dst -> ntiles src <> 1 ->
  stored KF s src -> stored KF s dst -> disj src dst -> ~ In scratch (tile_handles dst) -> ty (s scratch) = (KI, 2 * zlen (t_shape src)) ->
  runs_nd (Ok (map (gath_task src dst scratch ScOwn) (zrange (ntiles src)))) s (fun s' =>
    (forall idx, inb (t_shape dst) idx -> elem s' dst idx = elem s src idx) /\ frame [dst] s s').
Proof.
  intros Hs Hd H1 Hsh Hnt Ss Sd Hdis Hscr Hty. pose proof (ntiles_ndim src Hs Hnt) as Np.
  eapply nd_weaken; [apply (nd_elem dst (zrange (ntiles src)) (fun _ => 0) gath_md (fun i => [th src i]) (fun _ => []) (fun _ => [scratch])
    (fun i => subcopy_cpu ScOwn (zlen (t_shape src)) (zrep (zlen (t_shape src)) 0) (strides (tsh src i)) (tsh src i) (tstart src i) (strides (t_shape dst)))
    (fun i pre post o v => match pre with
       | b :: _ => let r := map2 Z.sub (unoff (t_shape dst) o) (tstart src i) in
                   if inbb (tsh src i) r then zn (fl b) (off (tsh src i) r) else v
       | [] => v end) s);
    try assumption|].
  - reflexivity.
  - intros i Hi. lia.
  - intros i _. unfold gath_md. destruct (i =? 0); auto.
  - intros i h Hi [[<-|[]]|[[]|[<-|[]]]]; [|assumption]. apply zrange_In in Hi.
    intros Hin. apply (Hdis _ (th_In src i Hs Hi) Hin).
  - intros i st d sc Hi Hti Hd' Hsc. apply zrange_In in Hi. cbn [map app].
    destruct sc as [|c [|]]; [discriminate| |discriminate]. cbn [map] in Hsc. inversion Hsc as [Hc]. rewrite Hty in Hc.
    destruct (ty_BI _ _ Hc) as (tmp & -> & Lt).
    assert (Et : ty (st (th src i)) = (KF, tsz src i)) by (rewrite Hti; apply Ss; assumption).
    destruct (ty_BF _ _ Et) as (a & Ea & La). rewrite Ea. rewrite (one_tsz dst Hd H1) in *.
    pose proof (tstart_box src Hs i Hi) as Bx.
    assert (Bd : box_in (tsh src i) (zrep (zlen (t_shape src)) 0) (tsh src i)).
    { unfold box_in. rewrite zlen_tsh, zlen_zrep by (assumption || lia). split; [reflexivity|]. split; [reflexivity|].
      intros k Hk. rewrite zn_zrep by lia. assert (Hk2 : 0 <= k < zlen (tsh src i)) by (rewrite zlen_tsh; assumption). pose proof (proj1 (pos_zn _) (tsh_pos src i Hs Hi) k Hk2). lia. }
    assert (Bx' : box_in (t_shape dst) (tstart src i) (tsh src i)) by (rewrite <- Hsh; assumption).
    assert (L1 : zlen (tsh src i) = zlen (t_shape src)) by (apply zlen_tsh; assumption).
    assert (L2 : zlen (t_shape dst) = zlen (t_shape src)) by (rewrite Hsh; reflexivity).
    assert (L3 : 2 * zlen (t_shape src) <= zlen tmp) by lia.
    destruct (k_subcopy_ok (zlen (t_shape src)) (tsh src i) (t_shape dst) (zrep (zlen (t_shape src)) 0) (tstart src i) (tsh src i) a d tmp
      Np L1 L2 Bd Bx' La Hd' L3) as (tmp' & Lt' & E).
    exists [BI tmp']. split; [|reflexivity]. unfold subcopy_cpu. rewrite E. bnd. do 4 f_equal.
    apply ztab_ext. intros o Ho. cbn [fl]. cbv zeta.
    destruct (inbb _ _) eqn:Eb; [|reflexivity]. f_equal. f_equal.
    pose proof (zlen_unoff (t_shape dst) o) as Lu. pose proof (zlen_tstart src Hs i) as Lts.
    set (r := map2 Z.sub (unoff (t_shape dst) o) (tstart src i)).
    assert (Lr : zlen r = zlen (t_shape src)) by (unfold r; rewrite zlen_map2; lia).
    apply list_ext; [rewrite zlen_map2; rewrite zlen_zrep; lia|]. rewrite zlen_map2 by (rewrite zlen_zrep; lia).
    rewrite zlen_zrep by lia. intros k Hk. rewrite zn_map2 by (rewrite ?zlen_zrep; lia). rewrite zn_zrep by lia. lia.
  - intros s' _ [G1 G2]. split; [|assumption]. intros idx Hidx. specialize (G1 idx Hidx).
    rewrite (one_etile dst Hd H1 idx Hidx), (one_eoff dst Hd H1 idx Hidx) in G1.
    assert (Hidx' : inb (t_shape src) idx) by (rewrite Hsh; assumption).
    pose proof (etile_bound src idx Hs Hidx') as He.
    rewrite (filter_all (fun _ => 0 =? 0)) in G1 by reflexivity.
    rewrite (zrange_split _ _ He) in G1.
    eapply nd_fold_hit in G1; [exact G1| | |].
    + intros v. cbv beta. cbn [map]. cbv zeta. rewrite unoff_off by assumption.
      rewrite (proj2 (inbb_spec _ _) (proj2 (tstart_mem src Hs (etile src idx) idx He Hidx') eq_refl)).
      rewrite tstart_eoff by assumption. reflexivity.
    + intros x Hx. apply in_map_iff in Hx as (l & <- & Hl). apply zrange_In in Hl. unfold gath_md.
      destruct (Z.eqb_spec (etile src idx + 1 + l) 0); [lia|reflexivity].
    + intros x v Hx. apply in_map_iff in Hx as (l & <- & Hl). apply zrange_In in Hl. cbv beta. cbn [map]. cbv zeta.
      rewrite unoff_off by assumption. destruct (inbb _ _) eqn:Eb; [|reflexivity]. exfalso. apply inbb_spec in Eb.
      apply tstart_mem in Eb; [lia|assumption|lia|assumption].
Qed.

(** ** One copy between two tensors of one tile *)
Lemma copy1_runs src dst s : wft src -> wft dst -> ntiles src = 1 -> ntiles dst = 1 -> t_shape src = t_shape dst ->
  stored KF s src -> stored KF s dst -> disj src dst ->
  runs (Ok [copy_submit (T := T) (th src 0) (th dst 0)]) s (fun s' =>
    (forall idx, inb (t_shape dst) idx -> elem s' dst idx = elem s src idx) /\ frame [dst] s s').
Proof.
  intros Hs Hd H1 H2 Hsh Ss Sd Hdis.
  eapply runs_weaken; [apply (acc_elem dst [0] (fun i => i) (fun _ => MW) (fun _ => [th src 0]) (fun _ => []) (fun _ => [])
    (fun _ => copy_cpu) (fun _ pre _ o v => match pre with b :: _ => zn (fl b) o | [] => dflt end) s); try assumption|].
  - reflexivity.
  - intros i [<-|[]]. lia.
  - auto.
  - intros i h _ [[<-|[]]|[[]|[]]]. intros Hin. apply (Hdis _ (th_In src 0 Hs ltac:(lia)) Hin).
  - intros i b1 b2 o v v' _ _. reflexivity.
  - intros i st d sc [<-|[]] Hti Hd' Hsc. destruct sc as [|]; [|discriminate]. cbn [map app].
    assert (Et : ty (st (th src 0)) = (KF, prodZ (t_shape src))) by (rewrite Hti, (Ss 0), one_tsz by (assumption || lia); reflexivity).
    destruct (ty_BF _ _ Et) as (a & Ea & La). rewrite Ea. rewrite (one_tsz dst Hd H2) in *.
    exists []. split; [|reflexivity]. unfold copy_cpu, memcpy. rewrite La, Hd', Hsh, Z.leb_refl. bnd. do 4 f_equal.
    rewrite Hsh in La. rewrite skipn_all2 by (unfold zlen in *; lia). rewrite app_nil_r. rewrite <- La. symmetry. apply ztab_zn.
  - intros s' _ [G1 G2]. split; [|assumption]. intros idx Hidx. rewrite (G1 idx Hidx).
    assert (Hidx' : inb (t_shape src) idx) by (rewrite Hsh; assumption).
    rewrite (one_etile dst Hd H2 idx Hidx), (one_eoff dst Hd H2 idx Hidx). cbn [filter Z.eqb fold_left map].
    unfold elem. rewrite (one_etile src Hs H1 idx Hidx'), (one_eoff src Hs H1 idx Hidx'), Hsh. reflexivity.
Qed.
End Sg.
