(** * C06 (sub-box copy), C07 and C08 (copy_intersection), C09 (scatter and gather) *)
From Verif Require Import Base Spec Geometry Traits TraitsProofs Axis Loops Runtime Ops TensorSem KernelsElem ElemOps ElemGeneric ElemProofs OneOut AccRuns
  Sequence Serial NdRuns GemmRuns Concrete Formulas PropElem SubcopyOps SubcopyKernel SubcopyLoops SubcopyRuns ScatterRuns TileCopy.

Local Open Scope Z_scope.

(** ** C06: the kernel.  [strides sh] are the strides 1, sh0, sh0*sh1, ... of an array. *)
Section C06.
Context {A : Type} {DA : Dflt A}.

Theorem C06_subcopy ndim (S D src_start dst_start box : list Z) (src dst : list A) (tmp : list Z) :
  0 < ndim -> zlen S = ndim -> zlen D = ndim -> box_in S src_start box -> box_in D dst_start box ->
  zlen src = prodZ S -> zlen dst = prodZ D -> 2 * ndim <= zlen tmp ->
  exists dst' tmp', k_subcopy rd wr ndim src_start (strides S) box src dst_start (strides D) dst tmp = Ok (dst', tmp') /\
    zlen dst' = zlen dst /\ zlen tmp' = zlen tmp /\
    (forall e, inb box e -> zn dst' (off D (map2 Z.add dst_start e)) = zn src (off S (map2 Z.add src_start e))) /\
    (forall idx, inb D idx -> ~ inb box (map2 Z.sub idx dst_start) -> zn dst' (off D idx) = zn dst (off D idx)).
Proof.
  intros Hn LS LD HS HD Ls Ld Lt. destruct (k_subcopy_ok ndim S D src_start dst_start box src dst tmp) as (tmp' & Lt' & E); try assumption.
  pose proof (box_shape_pos _ _ _ HD) as PD. pose proof (prodZ_pos _ PD) as Pp.
  eexists. exists tmp'. split; [exact E|]. split; [rewrite zlen_ztab; lia|]. split; [assumption|]. split.
  - intros e He. pose proof (box_add _ _ _ _ HD He) as Hi. rewrite zn_ztab by (apply off_bound; assumption). cbv zeta.
    rewrite unoff_off by assumption. destruct HD as (H1 & H2 & _). pose proof (inb_zlen _ _ He) as Le.
    rewrite sub_add by lia. rewrite (proj2 (inbb_spec _ _) He). reflexivity.
  - intros idx Hi Hn'. rewrite zn_ztab by (apply off_bound; assumption). cbv zeta. rewrite unoff_off by assumption.
    destruct (inbb _ _) eqn:Eb; [|reflexivity]. exfalso. apply Hn', inbb_spec, Eb.
Qed.

(** For other strides (the first stride must be 1 in both arrays) the kernel copies element by
    element over the box, in order of the offset in the box. *)
Theorem C06_strided {B} (get : list A -> Z -> res B) set ndim (src_start src_stride box dst_start dst_stride : list Z) (src dst : list A) (tmp : list Z) :
  0 < ndim -> zlen src_start = ndim -> zlen src_stride = ndim -> zlen box = ndim -> zlen dst_start = ndim ->
  zlen dst_stride = ndim -> 2 * ndim <= zlen tmp -> pos box -> zn src_stride 0 = 1 -> zn dst_stride 0 = 1 ->
  exists tmp', zlen tmp' = zlen tmp /\
  k_subcopy get set ndim src_start src_stride box src dst_start dst_stride dst tmp =
  (dst <- for_ 0 (prodZ box) (fun m dst =>
            x <- get src (lin src_stride (map2 Z.add src_start (unoff box m))) ;;
            set dst (lin dst_stride (map2 Z.add dst_start (unoff box m))) x) dst ;; Ok (dst, tmp')).
Proof. intros. apply k_subcopy_loop; assumption. Qed.

Example C06_example (a b c d e f x0 x1 x2 x3 x4 x5 x6 x7 x8 : A) :
  box_in [3; 2] [1; 0] [2; 2] /\ box_in [3; 3] [0; 1] [2; 2] /\
  k_subcopy rd wr 2 [1; 0] (strides [3; 2]) [2; 2] [a; b; c; d; e; f] [0; 1] (strides [3; 3])
    [x0; x1; x2; x3; x4; x5; x6; x7; x8] [0; 0; 0; 0] =
  Ok ([x0; x1; x2; b; c; x5; e; f; x8], [2; 1; 1; 2]).
Proof.
  assert (H2 : forall k, 0 <= k < zlen [3; 2] -> k = 0 \/ k = 1) by (intros k Hk; change (zlen [3; 2]) with 2 in Hk; lia).
  split; [|split; [|reflexivity]]; (split; [reflexivity|split; [reflexivity|]]);
    intros k Hk; destruct (H2 k Hk) as [->| ->]; vm_compute; repeat split; congruence.
Qed.
End C06.

(** ** C07: tiles.  [telem s shape h idx] is the element at column-major position [idx] of the tile of
    handle [h]; the element [idx] of the destination has global coordinate idx + dst_offset and thus
    coordinate idx + dst_offset - src_offset in the source. *)
Section C07.
Context {T : Type} {DT : Dflt T}.

Definition tile_ok (s : store T) (k : kind) (shape : list Z) (h : handle) : Prop := pos shape /\ ty (s h) = (k, prodZ shape).

Theorem C07_copy_intersection (S D W so do_ : list Z) (hs hd hw : handle) (s : store T) :
  tile_ok s KF S hs -> tile_ok s KF D hd -> tile_ok s KI W hw -> hs <> hd -> hw <> hd ->
  let op := tile_copy_intersection_async ScOwn (tt_of S, hs) so (tt_of D, hd) do_ (tt_of W, hw) in
  let ok := zlen so = zlen S /\ zlen D = zlen S /\ zlen do_ = zlen D /\ zlen W = 1 /\ 2 * zlen S <= zn W 0 in
  (ok -> runs op s (fun s' =>
     (forall idx, inb D idx -> inb S (map2 Z.sub (map2 Z.add idx do_) so) ->
        telem s' D hd idx = telem s S hs (map2 Z.sub (map2 Z.add idx do_) so)) /\
     (forall idx, inb D idx -> ~ inb S (map2 Z.sub (map2 Z.add idx do_) so) -> telem s' D hd idx = telem s D hd idx) /\
     (forall h, h <> hd -> s' h = s h))) /\
  (~ ok -> throws op).
Proof.
  intros [PS Es] [PD Ed] [PW Ew] N1 N2 op ok. split.
  - intros (L1 & L2 & L3 & L4 & L5).
    assert (Ew' : ty (s hw) = (KI, zn W 0)).
    { rewrite Ew. destruct W as [|w [|w2 W]]; [discriminate L4| |rewrite !zlen_cons in L4; pose proof (zlen_nonneg W); lia].
      cbn [prodZ]. rewrite Z.mul_1_r. reflexivity. }
    eapply runs_weaken; [apply (tile_ci_runs S D so do_ hs hd hw W); try assumption; congruence|].
    intros s' _ [G1 G2]. split; [|split; [|assumption]].
    + intros idx Hi Hj. rewrite (G1 idx Hi), (proj2 (inbb_spec _ _) Hj). reflexivity.
    + intros idx Hi Hj. rewrite (G1 idx Hi). destruct (inbb _ _) eqn:E; [|reflexivity]. exfalso. apply Hj, inbb_spec, E.
  - intros Hn. subst op ok. unfold tile_copy_intersection_async. cbn [tt_of tt_ndim tt_shape fst].
    destruct (Z.eqb_spec (zlen S) (zlen so)) as [E1|_]; cbn [negb throw_if]; [|eexists; reflexivity].
    destruct (Z.eqb_spec (zlen S) (zlen D)) as [E2|_]; cbn [negb throw_if]; [|eexists; reflexivity].
    destruct (Z.eqb_spec (zlen D) (zlen do_)) as [E3|_]; cbn [negb throw_if]; [|eexists; reflexivity].
    destruct (Z.eqb_spec (zlen W) 1) as [E4|_]; cbn [negb throw_if]; [|eexists; reflexivity].
    rewrite rd_ok by lia. bnd. destruct (Z.ltb_spec (zn W 0) (2 * zlen S)) as [_|E5]; cbn [throw_if]; [eexists; reflexivity|].
    exfalso. apply Hn. split; [congruence|]. split; [congruence|]. split; [congruence|]. auto.
Qed.
End C07.

(** ** C08: tensors with unrelated tilings *)
Section C08.
Context {T : Type} {DT : Dflt T}.

Lemma delta_id so idx : zlen so = zlen idx -> map2 Z.sub (map2 Z.add idx so) so = idx.
Proof.
  intros L. apply list_ext; [rewrite !zlen_map2; rewrite ?zlen_map2; lia|].
  rewrite !zlen_map2 by (rewrite ?zlen_map2; lia). intros k Hk. rewrite !zn_map2 by (rewrite ?zlen_map2; lia). lia.
Qed.

Lemma copy_loop_runs (src dst : tensor) s : wft src -> wft dst -> t_shape src = t_shape dst -> t_base src = t_base dst ->
  stored KF s src -> stored KF s dst -> disj src dst ->
  runs (for_ 0 (t_ntiles src) (fun i ts => hs <- get_tile_handle src i ;; hd <- get_tile_handle dst i ;; Ok (ts ++ [copy_submit (T := T) hs hd])) []) s
    (fun s' => (forall idx, inb (t_shape dst) idx -> elem s' dst idx = elem s src idx) /\ frame [dst] s s').
Proof.
  intros HA HB ES EB HsA HsB Hd.
  assert (En : ntiles src = ntiles dst) by (apply ntiles_ext; assumption).
  assert (Et : forall i, tsz src i = tsz dst i) by (intros i; unfold tsz, tsh; rewrite ES, EB; reflexivity).
  eapply runs_weaken; [apply (acc_elem dst (zrange (ntiles dst)) (fun i => i) (fun _ => MW) (fun i => [th src i]) (fun _ => []) (fun _ => [])
    (fun _ => copy_cpu) (fun _ pre _ o v => match pre with b :: _ => zn (fl b) o | [] => dflt end) s); try assumption|].
  - rewrite t_ntiles_eq by assumption. rewrite En. rewrite (for_append 0 (ntiles dst) _ (fun i => [copy_submit (th src i) (th dst i)]) []).
    + f_equal. cbn [app]. rewrite Z.sub_0_r. induction (zrange (ntiles dst)) as [|x l IH]; [reflexivity|]. cbn [flat_map map app]. rewrite IH. reflexivity.
    + intros i acc Hi. rewrite get_tile_handle_ok by (auto; lia). bnd. rewrite get_tile_handle_ok by assumption. bnd. reflexivity.
  - intros i Hi. apply zrange_In in Hi. assumption.
  - auto.
  - intros i h Hi [[<-|[]]|[[]|[]]]. apply zrange_In in Hi. intros Hin. apply (Hd (th src i)); [apply th_In; auto; lia|assumption].
  - intros i b1 b2 o v v' _ _. reflexivity.
  - intros i st d sc Hi Hti Hd' Hsc. apply zrange_In in Hi. destruct sc as [|]; [|discriminate]. cbn [map app].
    assert (Ety : ty (st (th src i)) = (KF, tsz src i)) by (rewrite Hti; apply HsA; lia).
    destruct (ty_BF _ _ Ety) as (a & Ea & La). rewrite Ea. rewrite Et in La.
    exists []. split; [|reflexivity]. unfold copy_cpu, memcpy. rewrite La, Hd', Z.leb_refl. bnd. do 4 f_equal.
    rewrite skipn_all2 by (unfold zlen in *; lia). rewrite app_nil_r. rewrite <- La. symmetry. apply ztab_zn.
  - intros s' _ [G1 G2]. split; [|assumption]. intros idx Hidx. rewrite (G1 idx Hidx).
    pose proof (etile_bound dst idx HB Hidx) as He.
    rewrite (fold_single _ _ (etile dst idx)).
    + cbn [map]. unfold elem, etile, eoff. rewrite ES, EB. reflexivity.
    + apply filter_single; [apply NoDup_zrange|apply zrange_In; assumption|apply Z.eqb_refl|].
      intros y _ Hy. apply Z.eqb_eq in Hy. assumption.
Qed.

(** The result does not mention the tilings.  [runs_nd] (NdRuns.v): submission succeeds and every
    schedule, with arbitrary stale contents behind write-only accesses, is free of errors and ends
    in a state with the property.  The first task on a destination tile declares the tile write-only
    but may overwrite only a part of it (see C34), so [runs] does not hold. *)
Theorem C08_copy_intersection (src dst : tensor) (so do_ : list Z) (scratch : handle) (s : store T) : wf_tensor src -> wf_tensor dst ->
  let op := copy_intersection_async ScOwn src so dst do_ scratch in
  let ok := zlen so = zlen (t_shape src) /\ zlen (t_shape dst) = zlen (t_shape src) /\ zlen do_ = zlen (t_shape dst) in
  (ok -> stored KF s src -> stored KF s dst -> disj src dst -> ~ In scratch (tile_handles dst) ->
   ty (s scratch) = (KI, 2 * zlen (t_shape src)) ->
   runs_nd op s (fun s' =>
     (forall idx, inb (t_shape dst) idx -> inb (t_shape src) (map2 Z.sub (map2 Z.add idx do_) so) ->
        elem s' dst idx = elem s src (map2 Z.sub (map2 Z.add idx do_) so)) /\
     (forall idx, inb (t_shape dst) idx -> ~ inb (t_shape src) (map2 Z.sub (map2 Z.add idx do_) so) ->
        elem s' dst idx = elem s dst idx) /\
     frame [dst] s s')) /\
  (~ ok -> throws op).
Proof.
  intros Hs Hd op ok. apply wf_wft in Hs, Hd. split.
  - intros (L1 & L2 & L3) Ss Sd Hdj Hscr Hty. subst op. pose proof (zlen_nonneg (t_shape src)) as Nn.
    apply (nd_weaken _ _ (fun s' => (forall idx, inb (t_shape dst) idx -> elem s' dst idx =
       if inbb (t_shape src) (map2 Z.sub (map2 Z.add idx do_) so) then elem s src (map2 Z.sub (map2 Z.add idx do_) so) else elem s dst idx) /\ frame [dst] s s')).
    2: { intros s' _ [G1 G2]. split; [|split; [|assumption]].
      - intros idx Hi Hj. rewrite (G1 idx Hi), (proj2 (inbb_spec _ _) Hj). reflexivity.
      - intros idx Hi Hj. rewrite (G1 idx Hi). destruct (inbb _ _) eqn:E; [|reflexivity]. exfalso. apply Hj, inbb_spec, E. }
    assert (Same : so = do_ -> t_shape src = t_shape dst -> forall r, runs r s (fun s' => (forall idx, inb (t_shape dst) idx -> elem s' dst idx = elem s src idx) /\ frame [dst] s s') ->
       runs_nd r s (fun s' => (forall idx, inb (t_shape dst) idx -> elem s' dst idx =
       if inbb (t_shape src) (map2 Z.sub (map2 Z.add idx do_) so) then elem s src (map2 Z.sub (map2 Z.add idx do_) so) else elem s dst idx) /\ frame [dst] s s')).
    { intros E1 E2 r R. apply runs_runs_nd. eapply runs_weaken; [exact R|]. intros s' _ [G1 G2]. split; [|assumption].
      intros idx Hi. rewrite (G1 idx Hi). pose proof (inb_zlen _ _ Hi) as Li. rewrite <- E1, delta_id by congruence.
      rewrite E2, (proj2 (inbb_spec _ _) Hi). reflexivity. }
    destruct (Z.eq_dec (zlen (t_shape src)) 0) as [E0|N0].
    + unfold copy_intersection_async. rewrite (t_ndim_eq _ Hs), (t_ndim_eq _ Hd), L1, L3, L2, E0. cbn [Z.eqb negb throw_if].
      assert (Nil : forall l : list Z, zlen l = 0 -> l = []) by (intros [|x l] Hl; [reflexivity|rewrite zlen_cons in Hl; pose proof (zlen_nonneg l); lia]).
      assert (Es : t_shape src = []) by (apply Nil; lia). assert (Ed : t_shape dst = []) by (apply Nil; lia).
      assert (Os : ntiles src = 1) by (unfold ntiles; rewrite Es; reflexivity).
      assert (Od : ntiles dst = 1) by (unfold ntiles; rewrite Ed; reflexivity).
      rewrite !get_tile_handle_ok by (assumption || lia). do 2 bnd.
      apply Same; [rewrite (Nil so), (Nil do_) by lia; reflexivity|congruence|]. apply copy1_runs; auto. congruence.
    + destruct (list_eq_dec Z.eq_dec so do_) as [E1|E1].
      1: destruct (list_eq_dec Z.eq_dec (t_shape src) (t_shape dst)) as [E2|E2].
      1: destruct (list_eq_dec Z.eq_dec (t_base src) (t_base dst)) as [E3|E3].
      1: { unfold copy_intersection_async. rewrite (t_ndim_eq _ Hs), (t_ndim_eq _ Hd), L1, L3, L2, !Z.eqb_refl. cbn [negb throw_if].
           destruct (Z.eqb_spec (zlen (t_shape src)) 0) as [E|_]; [contradiction|].
           rewrite (proj2 (list_eqb_Z _ _) E1), (proj2 (list_eqb_Z _ _) E2), (proj2 (list_eqb_Z _ _) E3). cbn [andb].
           apply Same; auto. apply copy_loop_runs; auto. }
      all: assert (Ne : ~ (so = do_ /\ t_shape src = t_shape dst /\ t_base src = t_base dst)) by tauto;
        (destruct (forallb (ev_meet src dst so do_) (zrange (zlen (t_shape src)))) eqn:Em;
         [rewrite (ci_loop src dst so do_ scratch Hs Hd L2) by (assumption || lia || congruence);
          apply ci_runs; assumption || lia || congruence|]);
        (unfold copy_intersection_async; rewrite (t_ndim_eq _ Hs), (t_ndim_eq _ Hd), L1, L3, L2, !Z.eqb_refl; cbn [negb throw_if];
         destruct (Z.eqb_spec (zlen (t_shape src)) 0) as [E|_]; [contradiction|];
         replace (list_eqb Z.eqb so do_ && list_eqb Z.eqb (t_shape src) (t_shape dst) && list_eqb Z.eqb (t_base src) (t_base dst)) with false
           by (symmetry; apply not_true_iff_false; intros H; apply andb_true_iff in H as [H H3]; apply andb_true_iff in H as [H1 H2];
               apply list_eqb_Z in H1, H2, H3; tauto);
         rewrite (ci_box_ok src dst so do_ Hs Hd L2) by congruence; rewrite Em; bnd; apply nd_nop; split; [|intros h _; reflexivity];
         intros idx Hi; destruct (inbb (t_shape src) _) eqn:Eb; [|reflexivity];
         exfalso; apply inbb_spec in Eb; apply not_true_iff_false in Em; apply Em; apply forallb_forall; intros k Hk; apply zrange_In in Hk;
         destruct (ev_meet src dst so do_ k) eqn:Ek; [reflexivity|]; exfalso;
         destruct (proj1 (TraitsProofs.inb_zn _ _) Hi) as [Li Hx]; destruct (proj1 (TraitsProofs.inb_zn _ _) Eb) as [_ Hy];
         specialize (Hx k ltac:(lia)); specialize (Hy k Hk); rewrite !zn_map2 in Hy by (rewrite ?zlen_map2; lia);
         apply (d_miss (zn so k) (zn (t_shape src) k) (zn do_ k) (zn (t_shape dst) k) (zn idx k)); auto;
         apply (proj1 (pos_zn _) (wf_ps _ Hs)); assumption).
  - intros Hn. subst op ok. unfold copy_intersection_async. rewrite (t_ndim_eq _ Hs), (t_ndim_eq _ Hd).
    destruct (Z.eqb_spec (zlen (t_shape src)) (zlen so)) as [E1|_]; cbn [negb throw_if]; [|eexists; reflexivity].
    destruct (Z.eqb_spec (zlen (t_shape src)) (zlen (t_shape dst))) as [E2|_]; cbn [negb throw_if]; [|eexists; reflexivity].
    destruct (Z.eqb_spec (zlen (t_shape dst)) (zlen do_)) as [E3|_]; cbn [negb throw_if]; [|eexists; reflexivity].
    exfalso. apply Hn. split; [congruence|]. split; congruence.
Qed.
End C08.

(** ** C09 *)
Section C09.
Context {T : Type} {DT : Dflt T}.

Theorem C09_scatter (src dst : tensor) (scratch : handle) (s : store T) : wf_tensor src -> wf_tensor dst ->
  let ok := ntiles src = 1 /\ t_shape src = t_shape dst in
  (ok -> stored KF s src -> stored KF s dst -> disj src dst -> ~ In scratch (tile_handles dst) ->
   ty (s scratch) = (KI, 2 * zlen (t_shape dst)) ->
   runs (scatter_async ScOwn src dst scratch) s (fun s' =>
     (forall idx, inb (t_shape dst) idx -> elem s' dst idx = elem s src idx) /\ frame [dst] s s')) /\
  (~ ok -> throws (scatter_async (T := T) ScOwn src dst scratch)).
Proof.
  intros Hs Hd ok. apply wf_wft in Hs, Hd. split.
  - intros (H1 & Hsh) Ss Sd Hdj Hscr Hty. destruct (Z.eq_dec (ntiles dst) 1) as [E|N].
    + unfold scatter_async. rewrite (t_ntiles_eq _ Hs), (t_ntiles_eq _ Hd), H1, E, Z.eqb_refl. cbn [negb throw_if].
      rewrite (proj2 (list_eqb_Z _ _) Hsh). cbn [negb throw_if].
      rewrite get_tile_handle_ok, get_tile_traits_ok by (assumption || lia). do 2 bnd.
      rewrite get_tile_handle_ok by (assumption || lia). bnd. apply copy1_runs; assumption.
    + rewrite scatter_tasks by assumption. apply scatter_runs; assumption.
  - intros Hn. unfold scatter_async. rewrite (t_ntiles_eq _ Hs). destruct (Z.eqb_spec (ntiles src) 1) as [E|_]; cbn [negb throw_if]; [|eexists; reflexivity].
    destruct (list_eqb Z.eqb (t_shape src) (t_shape dst)) eqn:El; cbn [negb throw_if]; [|eexists; reflexivity].
    apply list_eqb_Z in El. exfalso. apply Hn. split; assumption.
Qed.

Theorem C09_gather (src dst : tensor) (scratch : handle) (s : store T) : wf_tensor src -> wf_tensor dst ->
  let ok := ntiles dst = 1 /\ t_shape src = t_shape dst in
  (ok -> stored KF s src -> stored KF s dst -> disj src dst -> ~ In scratch (tile_handles dst) ->
   ty (s scratch) = (KI, 2 * zlen (t_shape src)) ->
   runs_nd (gather_async ScOwn src dst scratch) s (fun s' =>
     (forall idx, inb (t_shape dst) idx -> elem s' dst idx = elem s src idx) /\ frame [dst] s s')) /\
  (~ ok -> throws (gather_async (T := T) ScOwn src dst scratch)).
Proof.
  intros Hs Hd ok. apply wf_wft in Hs, Hd. split.
  - intros (H1 & Hsh) Ss Sd Hdj Hscr Hty. destruct (Z.eq_dec (ntiles src) 1) as [E|N].
    + unfold gather_async. rewrite (t_ntiles_eq _ Hs), (t_ntiles_eq _ Hd), H1, E, Z.eqb_refl. cbn [negb throw_if].
      rewrite (proj2 (list_eqb_Z _ _) Hsh). cbn [negb throw_if].
      rewrite get_tile_handle_ok, get_tile_traits_ok by (assumption || lia). do 2 bnd.
      rewrite get_tile_handle_ok by (assumption || lia). bnd. apply runs_runs_nd, copy1_runs; assumption.
    + rewrite gather_tasks by assumption. apply gather_runs; assumption.
  - intros Hn. unfold gather_async. rewrite (t_ntiles_eq _ Hd). destruct (Z.eqb_spec (ntiles dst) 1) as [E|_]; cbn [negb throw_if]; [|eexists; reflexivity].
    destruct (list_eqb Z.eqb (t_shape src) (t_shape dst)) eqn:El; cbn [negb throw_if]; [|eexists; reflexivity].
    apply list_eqb_Z in El. exfalso. apply Hn. split; assumption.
Qed.

(** scatter then gather, submitted back to back, into another single-tile tensor or back into the source *)
Theorem C09_roundtrip (src mid dst : tensor) (h1 h2 : handle) (s : store T) : wf_tensor src -> wf_tensor mid -> wf_tensor dst ->
  ntiles src = 1 -> ntiles dst = 1 -> t_shape mid = t_shape src -> t_shape dst = t_shape src ->
  disj src mid -> disj mid dst -> stored KF s src -> stored KF s mid -> stored KF s dst ->
  ~ In h1 (tile_handles mid) -> ~ In h2 (tile_handles dst) ->
  ty (s h1) = (KI, 2 * zlen (t_shape src)) -> ty (s h2) = (KI, 2 * zlen (t_shape src)) ->
  runs_nd (then_ (scatter_async ScOwn src mid h1) (gather_async ScOwn mid dst h2)) s (fun s' =>
    (forall idx, inb (t_shape src) idx -> elem s' dst idx = elem s src idx) /\ frame [mid; dst] s s').
Proof.
  intros Hs Hm Hd N1 N2 E1 E2 D1 D2 S1 S2 S3 X1 X2 T1 T2.
  eapply nd_then; [apply runs_runs_nd, C09_scatter; try assumption; [split; congruence|rewrite E1; assumption]|].
  intros s1 Hti [G1 F1].
  eapply nd_weaken; [apply C09_gather; try assumption;
    [split; congruence|eapply tinv_stored; eassumption|eapply tinv_stored; eassumption|rewrite Hti, E1; assumption]|].
  intros s2 _ [G2 F2]. split.
  - intros idx Hi. rewrite G2 by (rewrite E2; assumption). apply G1. rewrite E1. assumption.
  - change [mid; dst] with ([mid] ++ [dst]). eapply frame_trans; eassumption.
Qed.
End C09.

(** ** The fp16 codelet of subcopy *)
Section Fp16.
Context {T : Type} {DT : Dflt T}.

Lemma for_nat_ub {S} (body : Z -> S -> res S) : forall n i0 s, (forall i x m, body i x <> Throw m) ->
  (exists i, i0 <= i < i0 + Z.of_nat n /\ forall x, body i x = UB) -> for_nat n i0 body s = UB.
Proof.
  induction n as [|n IH]; intros i0 s Ht (i & Hi & Hb); [lia|]. cbn [for_nat].
  destruct (Z.eq_dec i i0) as [->|Hne]; [rewrite Hb; reflexivity|].
  destruct (body i0 s) as [s'|m|] eqn:E; cbn [bind].
  - apply IH; [assumption|]. exists i. split; [lia|assumption].
  - exfalso. apply (Ht i0 s m E).
  - reflexivity.
Qed.

Lemma rd_nothrow {A} (l : list A) i m : rd l i <> Throw m.
Proof. unfold rd. destruct (i <? 0); [discriminate|]. destruct (nth_error l _); discriminate. Qed.
Lemma wr_nothrow {A} (l : list A) i v m : wr l i v <> Throw m.
Proof. unfold wr. destruct (_ && _); discriminate. Qed.
Lemma bind_nothrow {A B} (r : res A) (k : A -> res B) m : (forall m, r <> Throw m) -> (forall x m, k x <> Throw m) -> bind r k <> Throw m.
Proof. intros H1 H2. destruct r; cbn [bind]; [apply H2|exfalso; apply (H1 msg); reflexivity|discriminate]. Qed.
Lemma cp32_nothrow {A} (src : list A) a b dst m : cp_step get32 set32 src a b dst <> Throw m.
Proof.
  unfold cp_step, get32, set32. apply bind_nothrow.
  - intros m'. apply bind_nothrow; [intros; apply rd_nothrow|]. intros. apply bind_nothrow; [intros; apply rd_nothrow|discriminate].
  - intros x m'. apply bind_nothrow; [intros; apply wr_nothrow|]. intros. apply wr_nothrow.
Qed.
Lemma get32_ub {A} (l : list A) i : zlen l <= 2 * i + 1 -> get32 l i = UB.
Proof.
  intros H. unfold get32. destruct (rd l (2 * i)) as [a|m|] eqn:E; cbn [bind].
  - rewrite rd_oob by lia. reflexivity.
  - exfalso. apply (rd_nothrow _ _ _ E).
  - reflexivity.
Qed.
Lemma wr_zlen {A} (l l' : list A) i v : wr l i v = Ok l' -> zlen l' = zlen l.
Proof.
  unfold wr. destruct (_ && _); [|discriminate]. intros E. inversion E. unfold zlen. f_equal. clear.
  revert l. induction (Z.to_nat i) as [|n IH]; intros [|x l]; cbn [upd List.length]; try reflexivity. rewrite IH. reflexivity.
Qed.
Lemma set32_ub {A} (l : list A) i x : zlen l <= 2 * i + 1 -> set32 l i x = UB.
Proof.
  intros H. unfold set32. destruct (wr l (2 * i) (fst x)) as [a|m|] eqn:E; cbn [bind].
  - apply wr_zlen in E. apply wr_oob. lia.
  - exfalso. apply (wr_nothrow _ _ _ _ E).
  - reflexivity.
Qed.
Lemma set32_zlen {A} (l l' : list A) i x : set32 l i x = Ok l' -> zlen l' = zlen l.
Proof.
  unfold set32. destruct (wr l (2 * i) (fst x)) as [a| |] eqn:E; cbn [bind]; try discriminate. intros E2.
  apply wr_zlen in E, E2. congruence.
Qed.

(** A destination (or source) whose last element is in the copied box is accessed out of bounds. *)
Lemma sub16_ub {A} ndim S D src_start dst_start cs (src dst : list A) tmp :
  0 < ndim -> zlen S = ndim -> zlen D = ndim -> box_in S src_start cs -> box_in D dst_start cs ->
  zlen src = prodZ S -> zlen dst = prodZ D -> 2 * ndim <= zlen tmp ->
  (exists e, inb cs e /\ (off S (map2 Z.add src_start e) = prodZ S - 1 \/ off D (map2 Z.add dst_start e) = prodZ D - 1)) ->
  k_subcopy get32 set32 ndim src_start (strides S) cs src dst_start (strides D) dst tmp = UB.
Proof.
  intros Hn LS LD HS HD Ls Ld Lt (e & He & Ho).
  pose proof (box_pos _ _ _ HS) as Pc. pose proof HS as (A1 & A2 & _). pose proof HD as (B1 & B2 & _).
  pose proof (prodZ_pos _ (box_shape_pos _ _ _ HS)) as Pp. pose proof (prodZ_pos _ (box_shape_pos _ _ _ HD)) as Pd.
  assert (St0 : forall sh, 0 < zlen sh -> zn (strides sh) 0 = 1).
  { intros sh Hsh. unfold strides. rewrite zn_ztab by lia. reflexivity. }
  destruct (k_subcopy_loop get32 set32 ndim src_start (strides S) cs src dst_start (strides D) dst tmp) as (tmp' & Lt' & E);
    try assumption; rewrite ?zlen_strides; try lia; try (apply St0; lia).
  rewrite E. pose proof (inb_zlen _ _ He) as Le.
  assert (U : forall n i0 d, zlen d = prodZ D -> i0 <= off cs e < i0 + Z.of_nat n -> for_nat n i0 (fun m dst => cp_step get32 set32 src
      (lin (strides S) (map2 Z.add src_start (unoff cs m))) (lin (strides D) (map2 Z.add dst_start (unoff cs m))) dst) d = UB).
  { induction n as [|n IH]; intros i0 d Hd Hi; [lia|]. cbn [for_nat].
    destruct (Z.eq_dec (off cs e) i0) as [Ei|Ne].
    - assert (Eb : cp_step get32 set32 src (lin (strides S) (map2 Z.add src_start (unoff cs i0))) (lin (strides D) (map2 Z.add dst_start (unoff cs i0))) d = UB).
      { rewrite <- Ei, unoff_off by assumption. rewrite !lin_strides by (rewrite zlen_map2; lia). unfold cp_step. destruct Ho as [Ho|Ho].
        - rewrite get32_ub by lia. reflexivity.
        - destruct (get32 src _) as [x|m|] eqn:Eg; cbn [bind]; [apply set32_ub; lia| |reflexivity].
          exfalso. unfold get32 in Eg. destruct (rd src _) as [y|m'|] eqn:Er; cbn [bind] in Eg; try discriminate;
            [|apply (rd_nothrow _ _ _ Er)]. destruct (rd src (_ + 1)) as [y2|m'|] eqn:Er2; cbn [bind] in Eg; try discriminate. apply (rd_nothrow _ _ _ Er2). }
      rewrite Eb. reflexivity.
    - destruct (cp_step get32 set32 src _ _ d) as [d'|m|] eqn:Es; cbn [bind]; [|exfalso; eapply cp32_nothrow; exact Es|reflexivity].
      apply IH; [|lia]. unfold cp_step in Es. destruct (get32 src _) as [x| |]; cbn [bind] in Es; try discriminate.
      apply set32_zlen in Es. lia. }
  unfold for_. rewrite U; [reflexivity|lia|]. pose proof (off_bound _ _ He). lia.
Qed.

(** Failure of the first submitted task: no execution is possible. *)
Lemma first_ub (t : task T) ts s P : exec_task t s s = UB -> ~ always (t :: ts) s P.
Proof.
  intros E Ha. destruct (Ha (t :: ts) s (steps_refl _)) as [Hsafe _].
  destruct (Hsafe [] t ts s eq_refl) as (s' & E'); [intros t' []|intros h; reflexivity|]. cbn [snd] in E'. congruence.
Qed.

Lemma last_elem sh : pos sh -> inb sh (unoff sh (prodZ sh - 1)) /\ off sh (unoff sh (prodZ sh - 1)) = prodZ sh - 1.
Proof. intros Hp. pose proof (prodZ_pos _ Hp). split; [apply unoff_inb; auto; lia|apply off_unoff; auto; lia]. Qed.
Lemma zrep_add n l : 0 <= n -> zlen l = n -> map2 Z.add (zrep n 0) l = l.
Proof.
  intros Hn Ll. apply list_ext; [rewrite zlen_map2; rewrite zlen_zrep; lia|]. rewrite zlen_map2 by (rewrite zlen_zrep; lia).
  rewrite zlen_zrep by lia. intros k Hk. rewrite zn_map2 by (rewrite zlen_zrep; lia). rewrite zn_zrep by lia. lia.
Qed.
Lemma box_self sh : pos sh -> box_in sh (zrep (zlen sh) 0) sh.
Proof.
  intros Hp. pose proof (zlen_nonneg sh). unfold box_in. rewrite zlen_zrep by lia. split; [reflexivity|]. split; [reflexivity|].
  intros k Hk. rewrite zn_zrep by lia. pose proof (proj1 (pos_zn _) Hp k Hk). lia.
Qed.

(** scatter<fp16_t> and gather<fp16_t> with more than one tile always access memory out of bounds. *)
Theorem C09_fp16_scatter_refuted (src dst : tensor) (scratch : handle) (s : store T) : wf_tensor src -> wf_tensor dst ->
  ntiles src = 1 -> t_shape src = t_shape dst -> ntiles dst <> 1 ->
  stored KF s src -> stored KF s dst -> ty (s scratch) = (KI, 2 * zlen (t_shape dst)) ->
  exists ts, scatter_async ScFp16 src dst scratch = Ok ts /\ forall P, ~ always ts s P.
Proof.
  intros Hs Hd H1 Hsh Hnt Ss Sd Hty. apply wf_wft in Hs, Hd. pose proof (ntiles_pos dst Hd) as Ntp. pose proof (ntiles_ndim dst Hd Hnt) as Np.
  eexists. split; [apply scatter_tasks; assumption|]. intros P. rewrite (zrange_split (ntiles dst) 0) by lia. change (zrange 0) with (@nil Z).
  cbn [app map]. apply first_ub. unfold exec_task, scat_task, mk_acc. cbn [t_acc t_body map app in_buf reads fst snd].
  assert (Et : ty (s (th src 0)) = (KF, prodZ (t_shape src))) by (rewrite (Ss 0), one_tsz by (assumption || lia); reflexivity).
  destruct (ty_BF _ _ Et) as (a & Ea & La). rewrite Ea.
  assert (Ed : ty (s (th dst 0)) = (KF, tsz dst 0)) by (apply Sd; lia).
  destruct (ty_BF _ _ Ed) as (d & Ed' & Ld). rewrite Ed'. destruct (ty_BI _ _ Hty) as (tmp & Ew & Lt). rewrite Ew.
  assert (H0 : 0 <= 0 < ntiles dst) by lia. pose proof (tsh_pos dst 0 Hd H0) as Pt.
  unfold subcopy_cpu. rewrite (sub16_ub (zlen (t_shape dst)) (t_shape src) (tsh dst 0)).
  - reflexivity.
  - assumption.
  - rewrite Hsh. reflexivity.
  - apply zlen_tsh. assumption.
  - rewrite Hsh. apply tstart_box; assumption.
  - rewrite <- (zlen_tsh dst Hd 0). apply box_self. assumption.
  - assumption.
  - assumption.
  - lia.
  - exists (unoff (tsh dst 0) (prodZ (tsh dst 0) - 1)). destruct (last_elem _ Pt) as [I1 I2]. split; [assumption|]. right.
    rewrite zrep_add; [assumption|lia|]. rewrite zlen_unoff. apply zlen_tsh. assumption.
Qed.

Theorem C09_fp16_gather_refuted (src dst : tensor) (scratch : handle) (s : store T) : wf_tensor src -> wf_tensor dst ->
  ntiles dst = 1 -> t_shape src = t_shape dst -> ntiles src <> 1 ->
  stored KF s src -> stored KF s dst -> ty (s scratch) = (KI, 2 * zlen (t_shape src)) ->
  exists ts, gather_async ScFp16 src dst scratch = Ok ts /\ forall P, ~ always ts s P.
Proof.
  intros Hs Hd H1 Hsh Hnt Ss Sd Hty. apply wf_wft in Hs, Hd. pose proof (ntiles_pos src Hs) as Ntp. pose proof (ntiles_ndim src Hs Hnt) as Np.
  eexists. split; [apply gather_tasks; assumption|]. intros P. rewrite (zrange_split (ntiles src) 0) by lia. change (zrange 0) with (@nil Z).
  cbn [app map]. apply first_ub. unfold exec_task, gath_task, mk_acc, gath_md. cbn [t_acc t_body map app in_buf reads fst snd Z.eqb].
  assert (Et : ty (s (th dst 0)) = (KF, prodZ (t_shape dst))) by (rewrite (Sd 0), one_tsz by (assumption || lia); reflexivity).
  destruct (ty_BF _ _ Et) as (d & Ed' & Ld). rewrite Ed'.
  assert (Ed : ty (s (th src 0)) = (KF, tsz src 0)) by (apply Ss; lia).
  destruct (ty_BF _ _ Ed) as (a & Ea & La). rewrite Ea. destruct (ty_BI _ _ Hty) as (tmp & Ew & Lt). rewrite Ew.
  assert (H0 : 0 <= 0 < ntiles src) by lia. pose proof (tsh_pos src 0 Hs H0) as Pt.
  unfold subcopy_cpu. rewrite (sub16_ub (zlen (t_shape src)) (tsh src 0) (t_shape dst)).
  - reflexivity.
  - assumption.
  - apply zlen_tsh. assumption.
  - rewrite Hsh. reflexivity.
  - rewrite <- (zlen_tsh src Hs 0). apply box_self. assumption.
  - rewrite <- Hsh. apply tstart_box; assumption.
  - assumption.
  - assumption.
  - lia.
  - exists (unoff (tsh src 0) (prodZ (tsh src 0) - 1)). destruct (last_elem _ Pt) as [I1 I2]. split; [assumption|]. left.
    rewrite zrep_add; [assumption|lia|]. rewrite zlen_unoff. apply zlen_tsh. assumption.
Qed.
End Fp16.

(** ** Concrete cases meeting the hypotheses *)
Section Examples.
Context {T : Type} {DT : Dflt T}.

Lemma inb2 a b x y : 0 <= x < a -> 0 <= y < b -> inb [a; b] [x; y].
Proof. intros H1 H2. constructor; [assumption|]. constructor; [assumption|constructor]. Qed.

(** A 4x3 tensor with 2x2 tiles at offset (1,0) copied into a 5x2 tensor with 3x2 tiles at offset (0,1). *)
Example C08_example (c d : list Z -> T) :
  let src := std_tensor [4; 3] [2; 2] 0 in let dst := std_tensor [5; 2] [3; 2] 100 in
  let s := put src c (put dst d (fun _ => BI (zrep 4 0))) in
  runs_nd (copy_intersection_async ScOwn src [1; 0] dst [0; 1] 1000) s (fun s' =>
    elem s' dst [2; 1] = c [1; 2] /\ elem s' dst [4; 0] = c [3; 1] /\ elem s' dst [0; 0] = d [0; 0]).
Proof.
  intros src dst s.
  assert (W1 : wf_tensor src) by (unfold src; std_wf_tac). assert (W2 : wf_tensor dst) by (unfold dst; std_wf_tac).
  pose proof (wf_wft _ W1) as W1'. pose proof (wf_wft _ W2) as W2'.
  assert (D12 : disj src dst) by (apply std_disj; left; vm_compute; discriminate).
  assert (D21 : disj dst src) by (apply std_disj; right; vm_compute; discriminate).
  eapply nd_weaken; [apply (C08_copy_intersection src dst [1; 0] [0; 1] 1000 s W1 W2)|].
  - split; [reflexivity|split; reflexivity].
  - apply put_stored. assumption.
  - apply put_stored_other; auto. apply put_stored. assumption.
  - assumption.
  - unfold dst. rewrite std_handles. vm_compute. intros [_ H]. discriminate.
  - reflexivity.
  - intros s' _ (H1 & H2 & _).
    split; [|split].
    + rewrite (H1 [2; 1]); [|apply inb2; lia|apply inb2; lia]. apply put_elem; [assumption|apply inb2; lia].
    + rewrite (H1 [4; 0]); [|apply inb2; lia|apply inb2; lia]. apply put_elem; [assumption|apply inb2; lia].
    + rewrite (H2 [0; 0]); [|apply inb2; lia|intros H; inversion H; subst; lia].
      unfold s, put at 1. rewrite put_elem_other; [|assumption|assumption|apply inb2; lia]. apply put_elem; [assumption|apply inb2; lia].
Qed.

Example C07_example (c d : list Z -> T) :
  let s := put (tile_tensor [4; 3] 0) c (put (tile_tensor [5; 2] 1) d (fun _ => BI (zrep 4 0))) in
  runs (tile_copy_intersection_async ScOwn (tt_of [4; 3], 0) [1; 0] (tt_of [5; 2], 1) [0; 1] (tt_of [4], 2)) s (fun s' =>
    telem s' [5; 2] 1 [2; 1] = c [1; 2] /\ telem s' [5; 2] 1 [0; 0] = d [0; 0]).
Proof.
  intros s.
  assert (P1 : pos [4; 3]) by (repeat constructor). assert (P2 : pos [5; 2]) by (repeat constructor). assert (P3 : pos [4]) by (repeat constructor).
  pose proof (tile_wf [4; 3] 0 P1) as W1. pose proof (tile_wf [5; 2] 1 P2) as W2.
  assert (D21 : disj (tile_tensor [5; 2] 1) (tile_tensor [4; 3] 0)).
  { intros h H1 H2. apply tile_handles_eq in H1, H2; try assumption. lia. }
  eapply runs_weaken; [apply (C07_copy_intersection [4; 3] [5; 2] [4] [1; 0] [0; 1] 0 1 2 s); try lia|].
  - split; [assumption|reflexivity].
  - split; [assumption|reflexivity].
  - split; [assumption|reflexivity].
  - vm_compute. repeat split; discriminate.
  - intros s' _ (H1 & H2 & _). split.
    + rewrite (H1 [2; 1]); [|apply inb2; lia|apply inb2; lia]. rewrite <- tile_elem; [|assumption|apply inb2; lia].
      apply put_elem; [assumption|apply inb2; lia].
    + rewrite (H2 [0; 0]); [|apply inb2; lia|intros H; inversion H; subst; lia].
      rewrite <- tile_elem; [|assumption|apply inb2; lia].
      unfold s, put at 1. rewrite put_elem_other; [|assumption|assumption|apply inb2; lia]. apply put_elem; [assumption|apply inb2; lia].
Qed.

Example C09_example (c d e : list Z -> T) :
  let src := std_tensor [4; 3] [4; 3] 0 in let mid := std_tensor [4; 3] [3; 2] 100 in let dst := std_tensor [4; 3] [4; 3] 200 in
  let s := put src c (put mid d (put dst e (fun _ => BI (zrep 4 0)))) in
  runs_nd (then_ (scatter_async ScOwn src mid 1000) (gather_async ScOwn mid dst 1000)) s (fun s' =>
    forall idx, inb [4; 3] idx -> elem s' dst idx = c idx).
Proof.
  intros src mid dst s.
  assert (W1 : wf_tensor src) by (unfold src; std_wf_tac). assert (W2 : wf_tensor mid) by (unfold mid; std_wf_tac).
  assert (W3 : wf_tensor dst) by (unfold dst; std_wf_tac).
  pose proof (wf_wft _ W1) as W1'. pose proof (wf_wft _ W2) as W2'. pose proof (wf_wft _ W3) as W3'.
  assert (D21 : disj mid src) by (apply std_disj; right; vm_compute; discriminate).
  assert (D31 : disj dst src) by (apply std_disj; right; vm_compute; discriminate).
  assert (D32 : disj dst mid) by (apply std_disj; right; vm_compute; discriminate).
  eapply nd_weaken; [apply (C09_roundtrip src mid dst 1000 1000 s W1 W2 W3); try reflexivity|].
  - apply disj_sym. assumption.
  - apply disj_sym. assumption.
  - apply put_stored. assumption.
  - apply put_stored_other; auto. apply put_stored. assumption.
  - apply put_stored_other; auto. apply put_stored_other; auto. apply put_stored. assumption.
  - unfold mid. rewrite std_handles. vm_compute. intros [_ H]. discriminate.
  - unfold dst. rewrite std_handles. vm_compute. intros [_ H]. discriminate.
  - intros s' _ (H1 & _) idx Hi. rewrite (H1 idx Hi). apply put_elem; assumption.
Qed.
End Examples.
