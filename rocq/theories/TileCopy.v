(** * tile::copy_intersection: the submitted task and its result *)
From Verif Require Import Base Spec Geometry Traits TraitsProofs Axis Loops Runtime Ops TensorSem ElemOps ElemGeneric OneOut AccRuns
  Sequence Serial NdRuns GemmRuns Concrete SubcopyOps SubcopyKernel SubcopyLoops SubcopyRuns ScatterRuns.

(** A tile is a tensor of one tile. *)
Definition tile_tensor (shape : list Z) (h : handle) : tensor := std_tensor shape shape h.

Lemma grid_self shape : pos shape -> gridZ shape shape = zrep (zlen shape) 1.
Proof.
  intros Hp. apply list_ext; [rewrite zlen_gridZ, zlen_zrep; [reflexivity|apply zlen_nonneg|reflexivity]|].
  rewrite zlen_gridZ by reflexivity. intros k Hk. unfold gridZ. rewrite zn_map2 by (reflexivity || lia).
  rewrite zn_zrep by lia. pose proof (proj1 (pos_zn _) Hp k Hk). symmetry. apply Z.div_unique with (r := zn shape k - 1); lia.
Qed.
Lemma prod_zrep1 n : prodZ (zrep n 1) = 1.
Proof. unfold zrep. induction (Z.to_nat n) as [|m IH]; cbn [repeat prodZ]; [reflexivity|lia]. Qed.
Lemma tile_wf shape h : pos shape -> wft (tile_tensor shape h).
Proof. intros H. apply wf_wft. apply std_wf; auto. Qed.
Lemma tile_one shape h : pos shape -> ntiles (tile_tensor shape h) = 1.
Proof. intros H. unfold tile_tensor. rewrite std_ntiles, grid_self by assumption. apply prod_zrep1. Qed.
Lemma tile_th shape h : pos shape -> th (tile_tensor shape h) 0 = h.
Proof. intros H. pose proof (tile_one shape h H) as E. unfold tile_tensor in *. rewrite std_ntiles in E. rewrite std_th by lia. lia. Qed.
Lemma tile_handles_eq shape h h' : pos shape -> (In h' (tile_handles (tile_tensor shape h)) <-> h' = h).
Proof. intros H. pose proof (tile_one shape h H) as E. unfold tile_tensor in *. rewrite std_ntiles in E. rewrite std_handles, E. lia. Qed.
Lemma tile_stored {T} k (s : store T) shape h : pos shape -> ty (s h) = (k, prodZ shape) -> stored k s (tile_tensor shape h).
Proof.
  intros Hp E i Hi. rewrite tile_one in Hi by assumption. assert (i = 0) by lia. subst i.
  rewrite tile_th by assumption. rewrite one_tsz; [assumption|apply tile_wf; assumption|apply tile_one; assumption].
Qed.

Section Tc.
Context {T : Type} {DT : Dflt T}.

(** Element [idx] of a tile of the given shape in the buffer of handle [h]. *)
Definition telem (s : store T) (shape : list Z) (h : handle) (idx : list Z) : T := zn (fl (s h)) (off shape idx).

Lemma tile_elem s shape h idx : pos shape -> inb shape idx -> elem s (tile_tensor shape h) idx = telem s shape h idx.
Proof.
  intros Hp Hi. unfold elem, telem. rewrite one_etile, one_eoff, tile_th by (try assumption; try (apply tile_wf; assumption); apply tile_one; assumption).
  reflexivity.
Qed.

Variables (S D so do_ : list Z) (hs hd hw : handle) (W : list Z).
Notation n := (zlen S).
Hypothesis (PS : pos S) (PD : pos D) (LD : zlen D = n) (Lso : zlen so = n) (Ldo : zlen do_ = n) (LW : zlen W = 1) (HW : 2 * n <= zn W 0).
Notation tS := (tile_tensor S hs).
Notation tD := (tile_tensor D hd).
Notation delta idx := (map2 Z.sub (map2 Z.add idx do_) so).

Definition tc_bad k : bool := negb (ev_cs tS tD so do_ k =? zn D k).
Definition tc_task : task T :=
  mkTask (mk_acc [hs] hd (if existsb tc_bad (zrange n) then MRW else MW) [] [hw])
    (subcopy_cpu ScOwn n (ztab n (ev_ss so do_)) (strides S) (ztab n (ev_cs tS tD so do_)) (ztab n (ev_ds so do_)) (strides D)).

Lemma tile_ci_eq : tile_copy_intersection_async (T := T) ScOwn (tt_of S, hs) so (tt_of D, hd) do_ (tt_of W, hw) =
  if (n =? 0) || (list_eqb Z.eqb so do_ && list_eqb Z.eqb S D) then Ok [copy_submit hs hd]
  else if forallb (ev_meet tS tD so do_) (zrange n) then Ok [tc_task] else Ok [].
Proof.
  pose proof (zlen_nonneg S) as Nn. unfold tile_copy_intersection_async. cbn [tt_of tt_ndim tt_shape fst snd].
  rewrite LD, Lso, Ldo, LW, !Z.eqb_refl. cbn [negb throw_if]. rewrite rd_ok by lia. bnd.
  destruct (Z.ltb_spec (zn W 0) (2 * n)) as [E0|_]; [lia|]. cbn [throw_if].
  destruct (Z.eqb_spec n 0) as [E0|Hn0]; [reflexivity|]. cbn [orb].
  destruct (list_eqb Z.eqb so do_ && list_eqb Z.eqb S D); [reflexivity|].
  edestruct (for_inv (fun i st => st = if forallb (ev_meet tS tD so do_) (zrange i) then
      Some (tabk n i (ev_ss so do_) (fun _ => 0), tabk n i (ev_ds so do_) (fun _ => 0), tabk n i (ev_cs tS tD so do_) (fun _ => 0),
            if existsb tc_bad (zrange i) then MRW else MW) else None) 0 n) as (st & E & I); [exact Nn| | |rewrite E, I].
  - cbn. rewrite !tabk_0, <- !(zrep_ztab n 0) by lia. reflexivity.
  - intros i st Hi ->. cbv beta. rewrite zrange_succ, forallb_snoc, existsb_snoc by lia.
    destruct (forallb (ev_meet tS tD so do_) (zrange i)) eqn:Ef; [|eexists; split; reflexivity]. cbn [andb].
    rewrite !(rd_ok so), !(rd_ok S), !(rd_ok do_), !(rd_ok D) by lia. do 4 bnd.
    unfold ev_meet at 1, d_meet at 1. change (t_shape tS) with S. change (t_shape tD) with D.
    destruct ((zn so i + zn S i <=? zn do_ i) || (zn do_ i + zn D i <=? zn so i)) eqn:Em; cbn [negb]; [eexists; split; reflexivity|].
    assert (Est : (if zn so i <? zn do_ i then
             dst_start <- wr (tabk n i (ev_ds so do_) (fun _ => 0)) i 0 ;;
             src_start <- wr (tabk n i (ev_ss so do_) (fun _ => 0)) i (zn do_ i - zn so i) ;;
             a <- rd src_start i ;;
             copy_shape <- wr (tabk n i (ev_cs tS tD so do_) (fun _ => 0)) i (Z.min (zn S i - a) (zn D i)) ;;
             Ok (src_start, dst_start, copy_shape)
           else
             dst_start <- wr (tabk n i (ev_ds so do_) (fun _ => 0)) i (zn so i - zn do_ i) ;;
             src_start <- wr (tabk n i (ev_ss so do_) (fun _ => 0)) i 0 ;;
             a <- rd dst_start i ;;
             copy_shape <- wr (tabk n i (ev_cs tS tD so do_) (fun _ => 0)) i (Z.min (zn D i - a) (zn S i)) ;;
             Ok (src_start, dst_start, copy_shape)) =
           Ok (tabk n (i + 1) (ev_ss so do_) (fun _ => 0), tabk n (i + 1) (ev_ds so do_) (fun _ => 0), tabk n (i + 1) (ev_cs tS tD so do_) (fun _ => 0))).
    { destruct (zn so i <? zn do_ i) eqn:El.
      - rewrite wr_tabk; [|lia|unfold ev_ds, d_ds; rewrite El; reflexivity]. bnd.
        rewrite wr_tabk; [|lia|unfold ev_ss, d_ss; rewrite El; reflexivity]. bnd.
        rewrite rd_tabk by lia. bnd.
        rewrite wr_tabk; [|lia|unfold ev_cs, d_cs, ev_ss, d_ss; rewrite El; reflexivity]. reflexivity.
      - rewrite wr_tabk; [|lia|unfold ev_ds, d_ds; rewrite El; reflexivity]. bnd.
        rewrite wr_tabk; [|lia|unfold ev_ss, d_ss; rewrite El; reflexivity]. bnd.
        rewrite rd_tabk by lia. bnd.
        rewrite wr_tabk; [|lia|unfold ev_cs, d_cs, ev_ds, d_ds; rewrite El; reflexivity]. reflexivity. }
    rewrite Est. bnd. rewrite !rd_tabk by lia. bnd. eexists. split; [reflexivity|]. do 2 f_equal.
    fold (tc_bad i). destruct (tc_bad i); [rewrite orb_true_r; reflexivity|rewrite orb_false_r; reflexivity].
  - bnd. rewrite !tabk_n. destruct (forallb _ _); [|reflexivity]. unfold tc_task, subcopy_submit, mk_acc. cbn [map app].
    change (tt_stride _) with (strides S) at 1. reflexivity.
Qed.

Notation evHs := (ev_hs tS (tile_wf S hs PS)).
Notation evHd := (ev_hd tS tD (tile_wf D hd PD) LD).

Section Meet.
Hypothesis (Npos : 0 < n) (Hmeet : forallb (ev_meet tS tD so do_) (zrange n) = true).
Lemma tc_facts k : 0 <= k < n -> 0 <= ev_ss so do_ k /\ 0 <= ev_ds so do_ k /\ 0 < ev_cs tS tD so do_ k /\
  ev_ss so do_ k + ev_cs tS tD so do_ k <= zn S k /\ ev_ds so do_ k + ev_cs tS tD so do_ k <= zn D k /\ ev_ss so do_ k - ev_ds so do_ k = zn do_ k - zn so k.
Proof.
  intros Hk. pose proof (proj1 (pos_zn _) PS k Hk) as H1. assert (Hk2 : 0 <= k < zlen D) by lia. pose proof (proj1 (pos_zn _) PD k Hk2) as H2.
  apply d_facts; auto. rewrite forallb_forall in Hmeet. apply (Hmeet k). apply zrange_In. assumption.
Qed.
Lemma tc_box_s : box_in S (ztab n (ev_ss so do_)) (ztab n (ev_cs tS tD so do_)).
Proof.
  unfold box_in. rewrite !zlen_ztab by lia. split; [reflexivity|]. split; [reflexivity|]. intros k Hk. rewrite !zn_ztab by lia.
  destruct (tc_facts k Hk) as (? & ? & ? & ? & ? & ?). auto.
Qed.
Lemma tc_box_d : box_in D (ztab n (ev_ds so do_)) (ztab n (ev_cs tS tD so do_)).
Proof.
  unfold box_in. rewrite !zlen_ztab by lia. split; [lia|]. split; [lia|]. intros k Hk. rewrite !zn_ztab by lia.
  destruct (tc_facts k ltac:(lia)) as (? & ? & ? & ? & ? & ?). auto.
Qed.
Lemma tc_hit idx : inb D idx -> (inb (ztab n (ev_cs tS tD so do_)) (map2 Z.sub idx (ztab n (ev_ds so do_))) <-> inb S (delta idx)).
Proof.
  intros Hi. destruct (proj1 (TraitsProofs.inb_zn _ _) Hi) as [Li Hx].
  rewrite !TraitsProofs.inb_zn. rewrite !zlen_ztab by lia. rewrite !zlen_map2 by (rewrite ?zlen_map2, ?zlen_ztab; lia).
  split; intros [_ H]; (split; [lia|]); intros k Hk; specialize (H k Hk); rewrite ?zn_ztab in * by lia;
    rewrite !zn_map2 in * by (rewrite ?zlen_map2, ?zlen_ztab; lia); rewrite ?zn_ztab in * by lia;
    pose proof (proj1 (pos_zn _) PS k Hk) as H1; specialize (Hx k ltac:(lia));
    (assert (Hm : d_meet (zn so k) (zn S k) (zn do_ k) (zn D k) = true)
      by (rewrite forallb_forall in Hmeet; apply (Hmeet k), zrange_In; assumption));
    pose proof (d_hit (zn so k) (zn S k) (zn do_ k) (zn D k) (zn idx k) H1 Hx Hm) as Q; unfold ev_ds, ev_cs in *;
    change (t_shape tS) with S in *; change (t_shape tD) with D in *; lia.
Qed.
Lemma tc_src idx : inb D idx -> map2 Z.add (ztab n (ev_ss so do_)) (map2 Z.sub idx (ztab n (ev_ds so do_))) = delta idx.
Proof.
  intros Hi. destruct (proj1 (TraitsProofs.inb_zn _ _) Hi) as [Li Hx].
  apply list_ext; [rewrite !zlen_map2; rewrite ?zlen_map2, ?zlen_ztab; rewrite ?zlen_ztab; lia|].
  rewrite zlen_map2 by (rewrite zlen_map2; rewrite ?zlen_ztab; lia). rewrite zlen_ztab by lia. intros k Hk.
  rewrite !zn_map2 by (rewrite ?zlen_map2, ?zlen_ztab; rewrite ?zlen_ztab; lia). rewrite !zn_ztab by lia.
  destruct (tc_facts k Hk) as (_ & _ & _ & _ & _ & E). lia.
Qed.
Lemma tc_W idx : existsb tc_bad (zrange n) = false -> inb D idx -> inb (ztab n (ev_cs tS tD so do_)) (map2 Z.sub idx (ztab n (ev_ds so do_))).
Proof.
  intros Hb Hi. destruct (proj1 (TraitsProofs.inb_zn _ _) Hi) as [Li Hx]. apply TraitsProofs.inb_zn.
  rewrite zlen_ztab, zlen_map2 by (rewrite ?zlen_ztab; lia). split; [lia|]. intros k Hk.
  rewrite zn_map2 by (rewrite ?zlen_ztab; lia). rewrite !zn_ztab by lia. specialize (Hx k ltac:(lia)).
  assert (E : ev_cs tS tD so do_ k = zn D k).
  { destruct (Z.eqb_spec (ev_cs tS tD so do_ k) (zn D k)) as [E|E]; [assumption|]. exfalso.
    rewrite <- not_true_iff_false in Hb. apply Hb, existsb_exists. exists k. split; [apply zrange_In; assumption|].
    unfold tc_bad. apply negb_true_iff, Z.eqb_neq. assumption. }
  destruct (tc_facts k Hk) as (_ & H2 & _ & _ & H5 & _). lia.
Qed.
End Meet.

Theorem tile_ci_runs s : ty (s hs) = (KF, prodZ S) -> ty (s hd) = (KF, prodZ D) -> ty (s hw) = (KI, zn W 0) -> hs <> hd -> hw <> hd ->
  runs (tile_copy_intersection_async (T := T) ScOwn (tt_of S, hs) so (tt_of D, hd) do_ (tt_of W, hw)) s (fun s' =>
    (forall idx, inb D idx -> telem s' D hd idx = if inbb S (delta idx) then telem s S hs (delta idx) else telem s D hd idx) /\
    (forall h, h <> hd -> s' h = s h)).
Proof.
  intros Es Ed Ew N1 N2. pose proof (zlen_nonneg S) as Nn.
  pose proof (tile_wf S hs PS) as WS. pose proof (tile_wf D hd PD) as WD.
  pose proof (tile_one S hs PS) as OS. pose proof (tile_one D hd PD) as OD.
  pose proof (tile_stored KF s S hs PS Es) as SS. pose proof (tile_stored KF s D hd PD Ed) as SD.
  assert (Dj : disj tS tD).
  { intros h H1 H2. apply tile_handles_eq in H1, H2; try assumption. congruence. }
  rewrite tile_ci_eq.
  assert (Fr : forall s', frame [tD] s s' -> forall h, h <> hd -> s' h = s h).
  { intros s' F h Hh. apply F. intros t [<-|[]]. rewrite tile_handles_eq by assumption. assumption. }
  destruct ((n =? 0) || (list_eqb Z.eqb so do_ && list_eqb Z.eqb S D)) eqn:Ec.
  - assert (C : so = do_ /\ S = D).
    { apply orb_true_iff in Ec as [Ec|Ec].
      - apply Z.eqb_eq in Ec. rewrite Ec in *.
        assert (Nil : forall l : list Z, zlen l = 0 -> l = []) by (intros [|x l] Hl; [reflexivity|rewrite zlen_cons in Hl; pose proof (zlen_nonneg l); lia]).
        rewrite (Nil so), (Nil do_), (Nil S), (Nil D) by assumption. auto.
      - apply andb_true_iff in Ec as [E1 E2]. apply list_eqb_Z in E1, E2. auto. }
    destruct C as [E1 E2].
    pose proof (copy1_runs tS tD s WS WD OS OD E2 SS SD Dj) as R. rewrite !tile_th in R by assumption.
    eapply runs_weaken; [exact R|]. intros s' _ [G1 G2]. split; [|apply Fr; assumption]. intros idx Hi.
    rewrite <- tile_elem by assumption. rewrite (G1 idx Hi). rewrite tile_elem by (try rewrite E2; assumption).
    assert (Hdl : delta idx = idx).
    { destruct (proj1 (TraitsProofs.inb_zn _ _) Hi) as [Li _]. rewrite E1. apply list_ext; [rewrite !zlen_map2; rewrite ?zlen_map2; lia|].
      rewrite !zlen_map2 by (rewrite ?zlen_map2; lia). intros k Hk. rewrite !zn_map2 by (rewrite ?zlen_map2; lia). lia. }
    rewrite Hdl, E2, (proj2 (inbb_spec _ _) Hi). reflexivity.
  - apply orb_false_iff in Ec as [Ec _]. apply Z.eqb_neq in Ec. assert (Np : 0 < n) by lia.
    destruct (forallb (ev_meet tS tD so do_) (zrange n)) eqn:Em.
    + eapply runs_weaken; [apply (acc_elem tD [0] (fun i => i) (fun _ => if existsb tc_bad (zrange n) then MRW else MW)
        (fun _ => [hs]) (fun _ => []) (fun _ => [hw])
        (fun _ => subcopy_cpu ScOwn n (ztab n (ev_ss so do_)) (strides S) (ztab n (ev_cs tS tD so do_)) (ztab n (ev_ds so do_)) (strides D))
        (fun _ pre _ o v => match pre with
          | b :: _ => let r := map2 Z.sub (unoff D o) (ztab n (ev_ds so do_)) in
                      if inbb (ztab n (ev_cs tS tD so do_)) r then zn (fl b) (off S (map2 Z.add (ztab n (ev_ss so do_)) r))
                      else if existsb tc_bad (zrange n) then v else dflt
          | [] => dflt end) s); try assumption|].
      * cbn [map]. rewrite tile_th by assumption. reflexivity.
      * intros i [<-|[]]. lia.
      * intros i _. destruct (existsb _ _); auto.
      * intros i h _ [[<-|[]]|[[]|[<-|[]]]]; rewrite tile_handles_eq by assumption; assumption.
      * intros i b1 b2 o v v' [<-|[]] Hm. destruct b1 as [|b b1]; [reflexivity|].
        destruct (existsb tc_bad (zrange n)) eqn:Eb; [discriminate|]. reflexivity.
      * intros i st d sc [<-|[]] Hti Hd' Hsc. cbn [map app].
        destruct sc as [|c [|]]; [discriminate| |discriminate]. cbn [map] in Hsc. inversion Hsc as [Hc]. rewrite Ew in Hc.
        destruct (ty_BI _ _ Hc) as (tmp & -> & Lt).
        assert (Et : ty (st hs) = (KF, prodZ S)) by (rewrite Hti; assumption).
        destruct (ty_BF _ _ Et) as (a & Ea & La). rewrite Ea. rewrite one_tsz in * by assumption. change (t_shape tD) with D in *.
        assert (L3 : 2 * n <= zlen tmp) by lia.
        destruct (k_subcopy_ok n S D (ztab n (ev_ss so do_)) (ztab n (ev_ds so do_)) (ztab n (ev_cs tS tD so do_)) a d tmp
          Np eq_refl LD (tc_box_s Np Em) (tc_box_d Np Em) La Hd' L3) as (tmp' & Lt' & E).
        exists [BI tmp']. split; [|reflexivity]. unfold subcopy_cpu. rewrite E. bnd. do 4 f_equal. apply ztab_ext.
        intros o Ho. cbn [fl]. cbv zeta. destruct (inbb _ _) eqn:Eb; [reflexivity|]. destruct (existsb tc_bad (zrange n)) eqn:Ex; [reflexivity|].
        exfalso. apply not_true_iff_false in Eb. apply Eb, inbb_spec, tc_W; auto. apply unoff_inb; assumption.
      * intros s' _ [G1 G2]. split; [|apply Fr; assumption]. intros idx Hi. rewrite <- !tile_elem by assumption. rewrite (G1 idx Hi).
        rewrite one_etile by assumption. rewrite one_eoff by assumption. cbn [filter Z.eqb fold_left map].
        change (t_shape tD) with D. rewrite unoff_off by assumption. cbv zeta.
        destruct (inbb S (delta idx)) eqn:Eb.
        -- apply inbb_spec in Eb. rewrite (proj2 (inbb_spec _ _) (proj2 (tc_hit Np Em idx Hi) Eb)). rewrite tc_src by assumption. reflexivity.
        -- destruct (inbb (ztab _ _) _) eqn:Eb2.
           2: { destruct (existsb tc_bad (zrange n)) eqn:Ex; [apply tile_elem; assumption|]. exfalso. apply not_true_iff_false in Eb2.
                apply Eb2, inbb_spec, tc_W; auto. }
           exfalso. apply inbb_spec in Eb2. apply (tc_hit Np Em idx Hi) in Eb2.
           apply inbb_spec in Eb2. congruence.
    + apply nop_runs. split; [|reflexivity]. intros idx Hi. destruct (inbb S (delta idx)) eqn:Eb; [|reflexivity].
      exfalso. apply inbb_spec in Eb. apply not_true_iff_false in Em. apply Em. apply forallb_forall. intros k Hk. apply zrange_In in Hk.
      destruct (ev_meet tS tD so do_ k) eqn:Ek; [reflexivity|]. exfalso.
      destruct (proj1 (TraitsProofs.inb_zn _ _) Hi) as [Li Hx]. destruct (proj1 (TraitsProofs.inb_zn _ _) Eb) as [_ Hy].
      specialize (Hx k ltac:(lia)). specialize (Hy k Hk). rewrite !zn_map2 in Hy by (rewrite ?zlen_map2; lia).
      apply (d_miss (zn so k) (zn S k) (zn do_ k) (zn D k) (zn idx k)); auto. apply (proj1 (pos_zn _) PS). assumption.
Qed.
End Tc.
