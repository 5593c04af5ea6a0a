(** * Soft-max and normalisation family: tensor level (any scalar operations) *)
From Verif Require Import Base Spec Geometry Traits TraitsProofs Runtime Ops TensorSem ElemGeneric OneOut
  KernelsElem ElemOps Axis AccRuns Loops SliceOps SliceGeo SliceProofs SliceReduce SoftmaxOps PairGeo SoftmaxProofs.

Lemma sq_linear P i : wft P -> pairt P -> 0 <= i < ntiles P ->
  linear_to_index (t_grid P) i = Ok (0 :: unoff (gridZ (t_shape (sq P)) (t_base (sq P))) i).
Proof.
  intros HP Hp Hi. rewrite t_grid_eq by assumption. rewrite linear_to_index_ok by (auto using wf_pg).
  rewrite sq_unoff by assumption. reflexivity.
Qed.
Lemma pair_ptile P i : wft P -> pairt P -> 0 <= i < ntiles P -> tt_nelems (tt_of (tsh P i)) = 2 * tsz (sq P) i.
Proof. intros. rewrite <- sq_tsz by assumption. reflexivity. Qed.

Section R.
Context {T : Type} {O : Ops T}.
Local Notation vec := (list T).

Section Reduce.
Variables (src dst : tensor) (axis : Z).
Hypothesis (HA : wft src) (HB : wft dst).
Let d3 (p : Z * Z) := dim3 axis (tsh src (sg_out src (sq dst) axis p)).

Lemma pair_steps i {A} (K : list Z -> res A) : pair_match src dst axis -> 0 <= i < ntiles dst ->
  (v <- linear_to_index (t_grid dst) i ;; w <- pair_index src axis v ;; w <- wr w axis 0 ;;
   _ <- get_tile_traits dst i ;; K w)
  = K (ins axis 0 (unoff (gridZ (t_shape (sq dst)) (t_base (sq dst))) i)).
Proof.
  intros Hm Hi. pose proof (pair_match_pairt _ _ _ Hm) as Hp. pose proof (sq_match _ _ _ Hm) as Hq.
  pose proof (zlen_gs src (sq dst) axis HA Hq) as Hg. destruct (id Hm) as (Ha & _).
  rewrite sq_linear by assumption. bnd.
  rewrite pair_index_ok by (auto; rewrite zlen_unoff; assumption). bnd.
  rewrite wr_ins by (rewrite zlen_unoff; lia). bnd. rewrite get_tile_traits_ok by assumption. bnd. reflexivity.
Qed.

Lemma maxsumexp_submits redux : pair_match src dst axis ->
  maxsumexp_async src dst axis redux =
    Ok (map (fun p => maxsumexp_submit (zn (d3 p) 0) (zn (d3 p) 2) (zn (d3 p) 1) (th src (sg_out src (sq dst) axis p))
                        (th dst (fst p)) redux) (sg_xs src (sq dst) axis)).
Proof.
  intros Hm. pose proof (pair_match_pairt _ _ _ Hm) as Hp. pose proof (sq_match _ _ _ Hm) as Hq.
  pose proof (sq_wft dst HB Hp) as HQ.
  unfold maxsumexp_async. rewrite (checks_true _ _ (pair_check_checks src dst axis HA HB)) by assumption. bnd.
  rewrite t_ntiles_eq by assumption. rewrite <- (sq_ntiles dst Hp).
  apply (slice_pairs src (sq dst) axis). intros i ts Hi. pose proof Hi as Hi'. rewrite sq_ntiles in Hi' by assumption.
  rewrite get_tile_handle_ok by assumption. bnd. rewrite pair_steps by assumption.
  rewrite rd_grid by (assumption || apply Hm). bnd. apply for_map. intros j acc Hj.
  rewrite (sg_steps src (sq dst) axis i j) by (assumption || lia). reflexivity.
Qed.

Lemma pair_tiles (s : store T) idx j : pair_match src dst axis -> inb (t_shape (sq dst)) idx -> 0 <= j < sg_n src axis ->
  forall l, 0 <= l < ax_len src axis j ->
   zn (fl (s (th src (sg_out src (sq dst) axis (etile (sq dst) idx, j))))) (cell src (sq dst) axis (etile (sq dst) idx, j) (eoff (sq dst) idx) l)
   = elem s src (ins axis (j * zn (t_base src) axis + l) idx).
Proof.
  intros Hm Hi Hj l Hl. pose proof (pair_match_pairt _ _ _ Hm) as Hp. pose proof (sq_match _ _ _ Hm) as Hq.
  pose proof (sq_wft dst HB Hp) as HQ. pose proof (etile_bound (sq dst) idx HQ Hi) as Hit.
  destruct (sg_sizes src (sq dst) axis HA HQ Hq (etile (sq dst) idx) j Hit Hj) as (_ & _ & _ & _ & _ & _ & K).
  destruct (sg_up src (sq dst) axis HA HQ Hq idx j l Hi Hj) as (U1 & U2 & U3).
  { cbv zeta in K. rewrite K. exact Hl. }
  unfold elem. rewrite U2, U3. reflexivity.
Qed.


Theorem maxsumexp_runs s : pair_match src dst axis -> disj src dst -> stored KF s src -> stored KF s dst ->
  runs (maxsumexp_async src dst axis false) s (fun s' =>
    (forall idx, inb (t_shape (sq dst)) idx ->
       pelem s' dst idx = fold_left (fun v j =>
           mse_upd (mse (ax_len src axis j) (fun l => elem s src (ins axis (j * zn (t_base src) axis + l) idx))) v)
         (zrange (sg_n src axis)) (pelem s dst idx)) /\
    frame [dst] s s').
Proof.
  intros Hm Hd S1 S2. pose proof (pair_match_pairt _ _ _ Hm) as Hp. pose proof (sq_match _ _ _ Hm) as Hq.
  pose proof (sq_wft dst HB Hp) as HQ.
  eapply runs_weaken; [apply (acc_pair dst (sg_xs src (sq dst) axis) fst (fun _ => MRW)
    (fun p => [th src (sg_out src (sq dst) axis p)]) (fun _ => []) (fun _ => [])
    (fun p => wrap2 (k_maxsumexp (zn (d3 p) 0) (zn (d3 p) 2) (zn (d3 p) 1)))
    (fun p b1 _ o v => mse_upd (mse (ax_len src axis (snd p)) (fun l => zn (fl (hd (BF []) b1)) (cell src (sq dst) axis p o l))) v))|].
  - assumption.
  - assumption.
  - assumption.
  - rewrite maxsumexp_submits by assumption. reflexivity.
  - intros [i j] Hx. apply sg_xs_In in Hx. cbn [fst snd] in *. rewrite sq_ntiles in Hx by assumption. tauto.
  - auto.
  - intros [i j] h Hx [[<-|[]]|[[]|[]]]. apply sg_xs_In in Hx. cbn [fst snd] in *.
    apply disj_notin; try assumption. apply sg_bound; tauto || assumption.
  - intros; discriminate.
  - intros [i j] st d sc Hx Ht Hl Hsc. apply sg_xs_In in Hx. cbn [fst snd] in *. destruct Hx as [Hi Hj].
    destruct sc; [|discriminate]. exists []. split; [|reflexivity].
    pose proof (sg_bound src (sq dst) axis HA HQ Hq i j Hi Hj) as Ho.
    destruct (sg_sizes src (sq dst) axis HA HQ Hq i j Hi Hj) as (D0 & D1 & D2 & _ & T1 & T2 & T3). cbv zeta in *.
    fold (d3 (i, j)) in D0, D1, D2, T1, T2, T3.
    destruct (bufF s st src _ Ht S1 Ho) as (l & E & Hll). cbn [map app hd]. rewrite E. cbn [wrap2 app].
    rewrite sq_tsz in Hl by assumption.
    rewrite k_maxsumexp_ok by (assumption || congruence). bnd. rewrite T1. unfold ax_len. rewrite <- T3. reflexivity.
  - intros s' _ [H1 H2]. split; [|assumption]. intros idx Hi. rewrite H1 by assumption.
    rewrite (red_filter src (sq dst) axis HQ) by assumption. rewrite fold_left_map'. apply fold_left_ext. intros v j Hj.
    apply zrange_In in Hj. cbn [map hd snd fst]. f_equal.
    pose proof (etile_bound (sq dst) idx HQ Hi) as Hit.
    destruct (sg_sizes src (sq dst) axis HA HQ Hq (etile (sq dst) idx) j Hit Hj) as (_ & D1 & _ & _ & _ & _ & K).
    cbv zeta in *. apply mse_ext; [unfold ax_len; lia|]. intros l Hl. apply pair_tiles; assumption.
Qed.

(** sumnorm: position -1 stands for the clearing task *)
Let xs : list (Z * Z) := list_prod (zrange (ntiles dst)) (-1 :: zrange (sg_n src axis)).
Definition sn_task (p : Z * Z) : task T :=
  if snd p =? -1 then clear_submit (th dst (fst p))
  else sumnorm_submit (zn (d3 p) 0) (zn (d3 p) 2) (zn (d3 p) 1) (th src (sg_out src (sq dst) axis p)) (th dst (fst p)).

Lemma sumnorm_submits : pair_match src dst axis -> sumnorm_async src dst axis = Ok (map sn_task xs).
Proof.
  intros Hm. pose proof (pair_match_pairt _ _ _ Hm) as Hp. pose proof (sq_match _ _ _ Hm) as Hq.
  pose proof (sq_wft dst HB Hp) as HQ.
  unfold sumnorm_async. rewrite (checks_true _ _ (pair_check_checks src dst axis HA HB)) by assumption. bnd.
  rewrite t_ntiles_eq by assumption.
  rewrite (for_flat _ _ (fun i => map (fun j => sn_task (i, j)) (-1 :: zrange (sg_n src axis)))).
  { rewrite app_nil_l. rewrite (flat_map_pairs (fun i j => sn_task (i, j))). unfold xs. f_equal. }
  intros i ts Hi. pose proof Hi as Hi'. rewrite <- (sq_ntiles dst Hp) in Hi'.
  rewrite get_tile_handle_ok by assumption. bnd. cbv zeta. rewrite pair_steps by assumption.
  rewrite rd_grid by (assumption || apply Hm). bnd. cbn [map].
  replace (ts ++ sn_task (i, -1) :: map (fun j => sn_task (i, j)) (zrange (sg_n src axis)))
    with ((ts ++ [sn_task (i, -1)]) ++ map (fun j => sn_task (i, j)) (zrange (sg_n src axis))) by (rewrite <- app_assoc; reflexivity).
  apply for_map. intros j acc Hj.
  rewrite (sg_steps src (sq dst) axis i j) by (assumption || lia). unfold sn_task. cbn [snd fst].
  destruct (Z.eqb_spec j (-1)); [lia|]. reflexivity.
Qed.

Theorem sumnorm_runs s : pair_match src dst axis -> disj src dst -> stored KF s src -> stored KF s dst ->
  runs (sumnorm_async src dst axis) s (fun s' =>
    (forall idx, inb (t_shape (sq dst)) idx ->
       pelem s' dst idx = fold_left (fun v j =>
           sn_upd (sn (ax_len src axis j) (fun l => elem s src (ins axis (j * zn (t_base src) axis + l) idx)) v))
         (zrange (sg_n src axis)) (o_zero, o_zero)) /\
    frame [dst] s s').
Proof.
  intros Hm Hd S1 S2. pose proof (pair_match_pairt _ _ _ Hm) as Hp. pose proof (sq_match _ _ _ Hm) as Hq.
  pose proof (sq_wft dst HB Hp) as HQ.
  assert (HX : forall p, In p xs -> 0 <= fst p < ntiles dst /\ (snd p = -1 \/ 0 <= snd p < sg_n src axis)).
  { intros [i j] Hx. unfold xs in Hx. apply in_prod_iff in Hx. cbn [In] in Hx. rewrite !zrange_In in Hx. cbn [fst snd]. intuition lia. }
  eapply runs_weaken; [apply (acc_pair dst xs fst (fun p => if snd p =? -1 then MW else MRW)
    (fun p => if snd p =? -1 then [] else [th src (sg_out src (sq dst) axis p)]) (fun _ => []) (fun _ => [])
    (fun p => if snd p =? -1 then clear_cpu else wrap2 (k_sumnorm (zn (d3 p) 0) (zn (d3 p) 2) (zn (d3 p) 1)))
    (fun p b1 _ o v => if snd p =? -1 then (o_zero, o_zero) else
       sn_upd (sn (ax_len src axis (snd p)) (fun l => zn (fl (hd (BF []) b1)) (cell src (sq dst) axis p o l)) v)))|].
  - assumption.
  - assumption.
  - assumption.
  - rewrite sumnorm_submits by assumption. f_equal. apply map_ext. intros p. unfold sn_task. destruct (snd p =? -1); reflexivity.
  - intros p Hx. apply HX. assumption.
  - intros p _. destruct (snd p =? -1); auto.
  - intros [i j] h Hx [H|[[]|[]]]. apply HX in Hx. cbn [fst snd] in *. destruct (Z.eqb_spec j (-1)); [destruct H|].
    destruct H as [<-|[]]. apply disj_notin; try assumption. apply sg_bound; try assumption; [rewrite sq_ntiles by assumption; tauto|].
    destruct Hx as [_ [X|X]]; [contradiction|assumption].
  - intros p b1 b2 o v v' _ E. destruct (snd p =? -1); [reflexivity|discriminate].
  - intros [i j] st d sc Hx Ht Hl Hsc. apply HX in Hx. cbn [fst snd] in *. destruct Hx as [Hi Hj].
    destruct sc; [|discriminate]. exists []. split; [|reflexivity].
    pose proof Hi as Hi'. rewrite <- (sq_ntiles dst Hp) in Hi'. rewrite sq_tsz in Hl by assumption.
    pose proof (tsz_pos (sq dst) i HQ Hi') as Hpos.
    destruct (Z.eqb_spec j (-1)) as [->|Hne].
    { cbn [map app clear_cpu]. do 4 f_equal. apply (pair_ext (tsz (sq dst) i)).
      - rewrite zlen_zrep; lia.
      - rewrite zlen_ptab; lia.
      - intros c Hc. rewrite pr_ptab by assumption. unfold pr. rewrite !zn_zrep by lia. reflexivity. }
    destruct Hj as [Hj|Hj]; [contradiction|].
    pose proof (sg_bound src (sq dst) axis HA HQ Hq i j Hi' Hj) as Ho.
    destruct (sg_sizes src (sq dst) axis HA HQ Hq i j Hi' Hj) as (D0 & D1 & D2 & _ & T1 & T2 & T3). cbv zeta in *.
    fold (d3 (i, j)) in D0, D1, D2, T1, T2, T3.
    destruct (bufF s st src _ Ht S1 Ho) as (l & E & Hll). cbn [map app hd]. rewrite E. cbn [wrap2 app].
    rewrite k_sumnorm_ok by (assumption || congruence). bnd. rewrite T1. unfold ax_len. rewrite <- T3. reflexivity.
  - intros s' _ [H1 H2]. split; [|assumption]. intros idx Hi. rewrite H1 by assumption.
    pose proof (etile_bound (sq dst) idx HQ Hi) as Hit.
    unfold xs. rewrite filter_prod_fst; [|apply NoDup_zrange|apply zrange_In; rewrite <- (sq_ntiles dst Hp); assumption].
    cbn [map fold_left snd]. change (-1 =? -1) with true. cbv iota. rewrite fold_left_map'. apply fold_left_ext. intros v j Hj.
    apply zrange_In in Hj. cbn [map hd snd fst]. destruct (Z.eqb_spec j (-1)); [lia|]. f_equal. cbn [map hd].
    apply sn_ext. intros l Hl. apply pair_tiles; assumption.
Qed.
End Reduce.

(** ** Broadcasts of pairs *)
Section Bcast.
Variables (ms dst : tensor) (axis : Z).
Hypothesis (HA : wft ms) (HB : wft dst).
Let d3 (p : Z * Z) := dim3 axis (tsh dst (sg_out dst (sq ms) axis p)).

Lemma softmax_mnk_ok i j : pair_match dst ms axis -> 0 <= i < ntiles (sq ms) -> 0 <= j < sg_n dst axis ->
  softmax_mnk (tt_of (tsh ms i)) (tt_of (tsh dst (sg_out dst (sq ms) axis (i, j)))) (t_ndim dst) axis
  = Ok (zn (d3 (i, j)) 0, zn (d3 (i, j)) 2, zn (d3 (i, j)) 1).
Proof.
  intros Hm Hi Hj. pose proof (pair_match_pairt _ _ _ Hm) as Hp. pose proof (sq_match _ _ _ Hm) as Hq.
  pose proof (sq_wft ms HA Hp) as HQ. destruct (id Hm) as (Ha & _).
  pose proof (sg_bound dst (sq ms) axis HB HQ Hq i j Hi Hj) as Ho.
  pose proof (zlen_tsh dst _ HB Ho) as Hz.
  destruct (sg_sizes dst (sq ms) axis HB HQ Hq i j Hi Hj) as (D0 & D1 & D2 & Ed & T1 & T2 & T3). cbv zeta in *.
  fold (d3 (i, j)) in D0, D1, D2, Ed, T1, T2, T3.
  set (sh := tsh dst (sg_out dst (sq ms) axis (i, j))) in *.
  assert (Hk : rd sh axis = Ok (zn (d3 (i, j)) 1)) by (change (zn (d3 (i, j)) 1) with (zn sh axis); apply rd_ok; lia).
  assert (Hh : cdiv (tt_nelems (tt_of (tsh ms i))) 2 = Ok (tsz (sq ms) i)).
  { rewrite pair_ptile by (try assumption; rewrite <- (sq_ntiles ms Hp); assumption). unfold cdiv. cbn [Z.eqb].
    f_equal. rewrite Z.mul_comm. apply Z.quot_mul. lia. }
  unfold softmax_mnk. rewrite t_ndim_eq by assumption.
  destruct (split_at sh axis) as (l1 & x & l2 & E & El); [lia|].
  assert (E3 : d3 (i, j) = dim3 axis (l1 ++ x :: l2)) by (unfold d3; fold sh; rewrite E; reflexivity).
  rewrite dim3_app in E3 by assumption.
  destruct (Z.eqb_spec axis 0) as [A0|A0].
  - cbn [tt_of tt_shape]. rewrite A0 in Hk. rewrite Hk. bnd. rewrite Hh. bnd.
    destruct l1; [|rewrite zlen_cons in El; pose proof (zlen_nonneg l1); lia].
    rewrite T1, E3. change (zn [prodZ []; x; prodZ l2] 0) with 1. rewrite Z.mul_1_l. reflexivity.
  - destruct (Z.eqb_spec axis (zlen (t_shape dst) - 1)) as [A1|A1].
    + rewrite Hh. bnd. cbn [tt_of tt_shape]. rewrite Hk. bnd.
      assert (l2 = []).
      { destruct l2; [reflexivity|]. rewrite E in Hz. rewrite zlen_app, !zlen_cons in Hz. pose proof (zlen_nonneg l2). lia. }
      subst l2. rewrite T1, E3. change (zn [prodZ l1; x; prodZ []] 2) with 1. rewrite Z.mul_1_r. reflexivity.
    + rewrite tile_mnk_ok by lia. reflexivity.
Qed.

Lemma smax_steps i {A} (K : list Z -> TileTraits -> handle -> res A) : pair_match dst ms axis -> 0 <= i < ntiles ms ->
  (v <- linear_to_index (t_grid ms) i ;; t <- get_tile_traits ms i ;; h <- get_tile_handle ms i ;;
   w <- pair_index dst axis v ;; K w t h)
  = K (ins axis 0 (unoff (gridZ (t_shape (sq ms)) (t_base (sq ms))) i)) (tt_of (tsh ms i)) (th ms i).
Proof.
  intros Hm Hi. pose proof (pair_match_pairt _ _ _ Hm) as Hp. pose proof (sq_match _ _ _ Hm) as Hq.
  pose proof (zlen_gs dst (sq ms) axis HB Hq) as Hg. destruct (id Hm) as (Ha & _).
  rewrite sq_linear by assumption. bnd. rewrite get_tile_traits_ok, get_tile_handle_ok by assumption. bnd. bnd.
  rewrite pair_index_ok by (auto; rewrite zlen_unoff; assumption). bnd. reflexivity.
Qed.

Ltac pbc_loop Hm Hp := rewrite t_ntiles_eq by assumption; rewrite <- (sq_ntiles ms Hp);
  apply (slice_pairs dst (sq ms) axis); intros i ts Hi; pose proof Hi as Hi'; rewrite sq_ntiles in Hi' by assumption;
  rewrite smax_steps by assumption;
  destruct (id Hm) as (Ha & _);
  rewrite rd_grid by assumption; bnd;
  apply for_map; intros j acc Hj.
Ltac pbc_idx Hq HQ i j Hi Hj := 
  pose proof (zlen_gs dst (sq ms) axis HB Hq) as Hg;
  rewrite wr_ins by (rewrite zlen_unoff; lia); bnd; rewrite (t_grid_eq dst) by assumption;
  pose proof (sg_inb dst (sq ms) axis HB HQ Hq i j Hi Hj) as Hin;
  rewrite index_to_linear_ok by exact Hin; bnd;
  pose proof (sg_bound dst (sq ms) axis HB HQ Hq i j Hi Hj) as Ho.

Lemma softmax_inplace_submits alpha : pair_match dst ms axis ->
  softmax_inplace_async ms alpha dst axis =
    Ok (map (fun p => softmax_inplace_submit (zn (d3 p) 0) (zn (d3 p) 2) (zn (d3 p) 1) (th ms (fst p)) alpha
                        (th dst (sg_out dst (sq ms) axis p))) (sg_xs dst (sq ms) axis)).
Proof.
  intros Hm. pose proof (pair_match_pairt _ _ _ Hm) as Hp. pose proof (sq_match _ _ _ Hm) as Hq.
  pose proof (sq_wft ms HA Hp) as HQ. unfold softmax_inplace_async.
  rewrite (checks_true _ _ (pair_check_checks dst ms axis HB HA)) by assumption. bnd.
  pbc_loop Hm Hp. pbc_idx Hq HQ i j Hi Hj. change (off (gridZ (t_shape dst) (t_base dst)) _) with (sg_out dst (sq ms) axis (i, j)).
  rewrite get_tile_handle_ok, get_tile_traits_ok by assumption. bnd. bnd.
  rewrite softmax_mnk_ok by assumption. bnd. reflexivity.
Qed.

Lemma pbc_value (s : store T) idx : pair_match dst ms axis -> inb (t_shape dst) idx ->
  let p := (etile (sq ms) (del axis idx), zn idx axis / zn (t_base dst) axis) in
  let d := d3 p in
  pr (fl (s (th ms (fst p)))) (cz [zn d 0; zn d 1; zn d 2] 0 (eoff dst idx) + zn d 0 * cz [zn d 0; zn d 1; zn d 2] 2 (eoff dst idx))
  = pelem s ms (del axis idx).
Proof.
  intros Hm Hi p d. pose proof (pair_match_pairt _ _ _ Hm) as Hp. pose proof (sq_match _ _ _ Hm) as Hq.
  pose proof (sq_wft ms HA Hp) as HQ.
  destruct (sg_geo dst (sq ms) axis HB HQ Hq idx Hi) as (G1 & _ & _ & _ & o0 & o2 & G5 & G6 & G7 & G8 & G9).
  cbv zeta in *. fold p in G5, G6, G7, G8, G9. change (dim3 axis (tsh dst (sg_out dst (sq ms) axis p))) with d in *.
  rewrite pelem_pr by assumption. rewrite G9, G8. destruct (cz3 _ _ _ _ _ _ G5 G7 G6) as (C0 & _ & C2 & _). rewrite C0, C2. reflexivity.
Qed.

Theorem softmax_inplace_runs alpha s : pair_match dst ms axis -> disj ms dst -> stored KF s ms -> stored KF s dst ->
  runs (softmax_inplace_async ms alpha dst axis) s (fun s' =>
    (forall idx, inb (t_shape dst) idx ->
       elem s' dst idx = smax alpha (pelem s ms (del axis idx)) (elem s dst idx)) /\
    frame [dst] s s').
Proof.
  intros Hm Hd S1 S2. pose proof (pair_match_pairt _ _ _ Hm) as Hp. pose proof (sq_match _ _ _ Hm) as Hq.
  pose proof (sq_wft ms HA Hp) as HQ.
  eapply runs_weaken; [apply (acc_elem dst (sg_xs dst (sq ms) axis) (sg_out dst (sq ms) axis) (fun _ => MRW)
    (fun p => [th ms (fst p)]) (fun _ => []) (fun _ => [])
    (fun p => wrap2 (fun x d => k_softmax_inplace (zn (d3 p) 0) (zn (d3 p) 2) (zn (d3 p) 1) x alpha d))
    (fun p b1 _ o v => smax alpha (pr (fl (hd (BF []) b1))
       (cz [zn (d3 p) 0; zn (d3 p) 1; zn (d3 p) 2] 0 o + zn (d3 p) 0 * cz [zn (d3 p) 0; zn (d3 p) 1; zn (d3 p) 2] 2 o)) v))|].
  - assumption.
  - assumption.
  - rewrite softmax_inplace_submits by assumption. reflexivity.
  - intros [i j] Hx. apply sg_xs_In in Hx. cbn [fst snd] in Hx. apply sg_bound; tauto || assumption.
  - auto.
  - intros [i j] h Hx [[<-|[]]|[[]|[]]]. apply sg_xs_In in Hx. cbn [fst snd] in *. rewrite sq_ntiles in Hx by assumption.
    apply disj_notin; tauto || assumption.
  - intros; discriminate.
  - intros [i j] st d sc Hx Ht Hl Hsc. apply sg_xs_In in Hx. cbn [fst snd] in Hx. destruct Hx as [Hi Hj].
    destruct sc; [|discriminate]. exists []. split; [|reflexivity].
    destruct (sg_sizes dst (sq ms) axis HB HQ Hq i j Hi Hj) as (D0 & D1 & D2 & _ & T1 & T2 & _). cbv zeta in *.
    fold (d3 (i, j)) in D0, D1, D2, T1, T2. pose proof Hi as Hi'. rewrite sq_ntiles in Hi' by assumption.
    destruct (bufF s st ms i Ht S1 Hi') as (l & E & Hll). cbn [map app fst]. rewrite E. cbn [wrap2 app].
    rewrite sq_tsz in Hll by assumption.
    rewrite k_softmax_inplace_ok by (assumption || congruence). bnd. rewrite T2. reflexivity.
  - intros s' _ [H1 H2]. split; [|assumption]. intros idx Hi. rewrite H1 by assumption.
    rewrite (sg_filter dst (sq ms) axis) by assumption. cbn [fold_left map hd fst]. f_equal.
    apply pbc_value; assumption.
Qed.

Section Src.
Variable (src : tensor).
Hypothesis (HC : wft src).
Lemma softmax_checks : checks (pair_match dst ms axis /\ t_shape src = t_shape dst /\ t_base src = t_base dst)
  (softmax_check ms src dst axis).
Proof.
  unfold softmax_check. rewrite !t_ndim_eq by assumption.
  apply (checks_iff (zlen (t_shape ms) = zlen (t_shape dst) /\ zlen (t_shape src) = zlen (t_shape dst) /\ pair_match dst ms axis /\
    t_shape src = t_shape dst /\ t_base src = t_base dst /\ True)).
  { split; [tauto|]. intros (Hm & E1 & E2). split; [|split; [congruence|tauto]].
    destruct Hm as (Ha & E & _). rewrite E, zlen_cons, zlen_del by assumption. lia. }
  apply checks_eq. intros _. apply checks_eq. intros _.
  apply checks_seq; [apply pair_check_checks; assumption|]. intros _.
  apply list_eqb_checks. intros _. apply list_eqb_checks. intros _. apply checks_ok.
Qed.
Lemma softmax_submits alpha : pair_match dst ms axis -> t_shape src = t_shape dst -> t_base src = t_base dst ->
  softmax_async ms src alpha dst axis =
    Ok (map (fun p => softmax_submit (zn (d3 p) 0) (zn (d3 p) 2) (zn (d3 p) 1) (th ms (fst p))
                        (th src (sg_out dst (sq ms) axis p)) alpha
                        (th dst (sg_out dst (sq ms) axis p))) (sg_xs dst (sq ms) axis)).
Proof.
  intros Hm E1 E2. pose proof (pair_match_pairt _ _ _ Hm) as Hp. pose proof (sq_match _ _ _ Hm) as Hq.
  pose proof (sq_wft ms HA Hp) as HQ. unfold softmax_async.
  rewrite (checks_true _ _ softmax_checks) by auto. bnd.
  pbc_loop Hm Hp. pbc_idx Hq HQ i j Hi Hj. change (off (gridZ (t_shape dst) (t_base dst)) _) with (sg_out dst (sq ms) axis (i, j)).
  assert (Ho2 : 0 <= sg_out dst (sq ms) axis (i, j) < ntiles src) by (rewrite (ntiles_ext src dst); assumption).
  rewrite !get_tile_handle_ok, get_tile_traits_ok by assumption. bnd. bnd. bnd.
  rewrite softmax_mnk_ok by assumption. bnd. reflexivity.
Qed.
Theorem softmax_runs alpha s : pair_match dst ms axis -> t_shape src = t_shape dst -> t_base src = t_base dst ->
  disj ms dst -> disj src dst -> stored KF s ms -> stored KF s src -> stored KF s dst ->
  runs (softmax_async ms src alpha dst axis) s (fun s' =>
    (forall idx, inb (t_shape dst) idx ->
       elem s' dst idx = smax alpha (pelem s ms (del axis idx)) (elem s src idx)) /\
    frame [dst] s s').
Proof.
  intros Hm E1 E2 Hd Hd2 S1 S3 S2. pose proof (pair_match_pairt _ _ _ Hm) as Hp. pose proof (sq_match _ _ _ Hm) as Hq.
  pose proof (sq_wft ms HA Hp) as HQ.
  assert (En : ntiles src = ntiles dst) by (apply ntiles_ext; assumption).
  eapply runs_weaken; [apply (acc_elem dst (sg_xs dst (sq ms) axis) (sg_out dst (sq ms) axis) (fun _ => MW)
    (fun p => [th ms (fst p); th src (sg_out dst (sq ms) axis p)]) (fun _ => []) (fun _ => [])
    (fun p => wrap3 (fun x y d => k_softmax (zn (d3 p) 0) (zn (d3 p) 2) (zn (d3 p) 1) x y alpha d))
    (fun p b1 _ o v => smax alpha (pr (fl (hd (BF []) b1))
       (cz [zn (d3 p) 0; zn (d3 p) 1; zn (d3 p) 2] 0 o + zn (d3 p) 0 * cz [zn (d3 p) 0; zn (d3 p) 1; zn (d3 p) 2] 2 o))
       (zn (fl (hd (BF []) (tl b1))) o)))|].
  - assumption.
  - assumption.
  - rewrite softmax_submits by assumption. reflexivity.
  - intros [i j] Hx. apply sg_xs_In in Hx. cbn [fst snd] in Hx. apply sg_bound; tauto || assumption.
  - auto.
  - intros [i j] h Hx. apply sg_xs_In in Hx. cbn [fst snd] in *.
    pose proof (sg_bound dst (sq ms) axis HB HQ Hq i j (proj1 Hx) (proj2 Hx)) as Ho.
    rewrite sq_ntiles in Hx by assumption. cbn [In].
    intros [[<-|[<-|[]]]|[[]|[]]]; apply disj_notin; try assumption; [tauto|congruence].
  - reflexivity.
  - intros [i j] st d sc Hx Ht Hl Hsc. apply sg_xs_In in Hx. cbn [fst snd] in Hx. destruct Hx as [Hi Hj].
    destruct sc; [|discriminate]. exists []. split; [|reflexivity].
    destruct (sg_sizes dst (sq ms) axis HB HQ Hq i j Hi Hj) as (D0 & D1 & D2 & _ & T1 & T2 & _). cbv zeta in *.
    fold (d3 (i, j)) in D0, D1, D2, T1, T2.
    pose proof (sg_bound dst (sq ms) axis HB HQ Hq i j Hi Hj) as Ho.
    pose proof Hi as Hi'. rewrite sq_ntiles in Hi' by assumption.
    destruct (bufF s st ms i Ht S1 Hi') as (l & E & Hll).
    destruct (bufF s st src (sg_out dst (sq ms) axis (i, j)) Ht S3 ltac:(congruence)) as (l' & E' & Hll').
    cbn [map app fst]. rewrite E, E'. cbn [wrap3 app].
    rewrite sq_tsz in Hll by assumption. rewrite (tsz_ext src dst) in Hll' by assumption.
    rewrite k_softmax_ok by (assumption || congruence). bnd. rewrite T2. reflexivity.
  - intros s' _ [H1 H2]. split; [|assumption]. intros idx Hi. rewrite H1 by assumption.
    destruct (sg_geo dst (sq ms) axis HB HQ Hq idx Hi) as (_ & _ & _ & G4 & _). cbv zeta in G4.
    rewrite (sg_filter dst (sq ms) axis) by assumption. cbn [fold_left map hd tl fst].
    pose proof (pbc_value s idx Hm Hi) as V. cbv zeta in V. cbn [fst] in V. rewrite V. f_equal. unfold elem.
    rewrite (etile_ext src dst), (eoff_ext src dst) by assumption. rewrite G4. reflexivity.
Qed.
End Src.

Section Norm.
Variable (gb : tensor).
Hypothesis (HG : wft gb).
Lemma normalize_checks l (eps : T) :
  checks (t_shape gb = [2] /\ ntiles gb = 1 /\ 0 < l /\ o_geb o_zero eps = false /\ pair_match dst ms axis)
    (normalize_check gb ms dst l eps axis).
Proof.
  unfold normalize_check. rewrite t_ntiles_eq by assumption. rewrite !t_ndim_eq by assumption.
  apply (checks_iff (zlen (t_shape gb) = 1 /\ zn (t_shape gb) 0 = 2 /\ ntiles gb = 1 /\ zlen (t_shape ms) = zlen (t_shape dst) /\
    zlen (t_shape ms) <> 0 /\ ~ l <= 0 /\ o_geb o_zero eps = false /\ pair_match dst ms axis)).
  { split.
    - intros (H1 & H2 & H3 & _ & _ & H4 & H5 & H6). split; [|split; [assumption|split; [lia|tauto]]].
      destruct (t_shape gb) as [|x [|y l']].
      + vm_compute in H1. discriminate.
      + change (x = 2) in H2. congruence.
      + rewrite !zlen_cons in H1. pose proof (zlen_nonneg l'). lia.
    - intros (H1 & H2 & H3 & H4 & H5). rewrite H1. split; [reflexivity|]. split; [reflexivity|]. split; [assumption|].
      destruct (id H5) as (Ha & E & _). rewrite E, zlen_cons, zlen_del by assumption. split; [lia|]. split; [lia|]. split; [lia|]. split; assumption. }
  apply checks_eq. intros H1. rewrite rd_ok' by lia. apply checks_eq. intros _. apply checks_eq. intros _.
  apply checks_eq. intros _.
  apply checks_if; [intros X; apply Z.eqb_eq in X; lia|intros X; apply Z.eqb_neq in X; lia|]. intros _.
  apply checks_if; [intros X; apply Z.leb_le in X; lia|intros X; apply Z.leb_gt in X; lia|]. intros _.
  apply checks_if; [congruence|auto|]. intros _. apply pair_check_checks; assumption.
Qed.
Lemma normalize_submits l eps : t_shape gb = [2] -> ntiles gb = 1 -> 0 < l -> o_geb o_zero eps = false -> pair_match dst ms axis ->
  normalize_async gb ms dst l eps axis =
    Ok (map (fun p => normalize_submit (zn (d3 p) 0) (zn (d3 p) 2) (zn (d3 p) 1) l eps (th gb 0) (th ms (fst p))
                        (th dst (sg_out dst (sq ms) axis p))) (sg_xs dst (sq ms) axis)).
Proof.
  intros E1 E2 Hl He Hm. pose proof (pair_match_pairt _ _ _ Hm) as Hp. pose proof (sq_match _ _ _ Hm) as Hq.
  pose proof (sq_wft ms HA Hp) as HQ. unfold normalize_async.
  rewrite (checks_true _ _ (normalize_checks l eps)) by auto. bnd. rewrite get_tile_handle_ok by (assumption || lia). bnd.
  rewrite t_ntiles_eq by assumption; rewrite <- (sq_ntiles ms Hp);
  apply (slice_pairs dst (sq ms) axis); intros i ts Hi; pose proof Hi as Hi'; rewrite sq_ntiles in Hi' by assumption.
  pose proof (zlen_gs dst (sq ms) axis HB Hq) as Hg. destruct (id Hm) as (Ha & _).
  rewrite sq_linear by assumption. bnd. rewrite get_tile_traits_ok, get_tile_handle_ok by assumption. bnd. bnd.
  rewrite pair_index_ok by (auto; rewrite zlen_unoff; assumption). bnd.
  rewrite rd_grid by assumption. bnd. apply for_map; intros j acc Hj.
  rewrite (sg_steps dst (sq ms) axis i j) by assumption. reflexivity.
Qed.
Theorem normalize_runs l eps s : t_shape gb = [2] -> ntiles gb = 1 -> 0 < l -> o_geb o_zero eps = false -> pair_match dst ms axis ->
  disj gb dst -> disj ms dst -> stored KF s gb -> stored KF s ms -> stored KF s dst ->
  runs (normalize_async gb ms dst l eps axis) s (fun s' =>
    (forall idx, inb (t_shape dst) idx ->
       elem s' dst idx = nrmz l eps (elem s gb [0]) (elem s gb [1]) (pelem s ms (del axis idx)) (elem s dst idx)) /\
    frame [dst] s s').
Proof.
  intros E1 E2 Hl0 He Hm Hd2 Hd S3 S1 S2. pose proof (pair_match_pairt _ _ _ Hm) as Hp. pose proof (sq_match _ _ _ Hm) as Hq.
  pose proof (sq_wft ms HA Hp) as HQ.
  assert (Hg : forall c, 0 <= c < 2 -> etile gb [c] = 0 /\ eoff gb [c] = c /\ tsz gb 0 = 2).
  { intros c Hc. pose proof (wf_len _ HG) as Hl. rewrite E1 in Hl.
    destruct (t_base gb) as [|b [|b' lb]] eqn:Eb.
    - vm_compute in Hl. discriminate.
    - pose proof (wf_pb _ HG) as Pb. rewrite Eb in Pb. inversion Pb as [|? ? Pb' _]; subst.
      assert (Eg : ntiles gb = 1) by assumption.
      assert (Hi : inb (t_shape gb) [c]) by (rewrite E1; constructor; [assumption|constructor]).
      pose proof (etile_bound gb [c] HG Hi) as Het. rewrite E2 in Het.
      assert (Ht0 : etile gb [c] = 0) by lia.
      assert (Hd0 : c / b = 0).
      { unfold etile in Ht0. rewrite E1, Eb in Ht0. cbn in Ht0. lia. }
      assert (H1 : 1 / b = 0).
      { assert (Hi1 : inb (t_shape gb) [1]) by (rewrite E1; constructor; [lia|constructor]).
        pose proof (etile_bound gb [1] HG Hi1) as Het1. unfold etile in Het1. rewrite E1, Eb in Het1. cbn [tile_of map2 off gridZ] in Het1.
        change (tile_of [b] [1]) with [1 / b] in Het1. cbn [off] in Het1. pose proof (Z.div_pos 1 b ltac:(lia) Pb'). lia. }
      assert (Hb2 : 2 <= b). { destruct (Z.eq_dec b 1) as [->|]; [vm_compute in H1; discriminate|lia]. }
      split; [assumption|]. split.
      + unfold eoff. rewrite Eb. unfold in_tile. cbn [map2]. rewrite Z.mod_small by lia.
        rewrite E1. cbn. lia.
      + unfold tsz, tsh. rewrite E1, Eb. unfold tshape, gridZ, unoff. cbn [map2 prodZ].
        cbn. rewrite Zmod_0_l. cbn. lia.
    - rewrite !zlen_cons in Hl. pose proof (zlen_nonneg lb). change (zlen (@nil Z)) with 0 in Hl. lia. }
  destruct (Hg 0 ltac:(lia)) as (Ht0 & Ho0 & Hz). destruct (Hg 1 ltac:(lia)) as (Ht1 & Ho1 & _).
  eapply runs_weaken; [apply (acc_elem dst (sg_xs dst (sq ms) axis) (sg_out dst (sq ms) axis) (fun _ => MRW)
    (fun p => [th gb 0; th ms (fst p)]) (fun _ => []) (fun _ => [])
    (fun p => wrap3 (fun g x d => k_normalize (zn (d3 p) 0) (zn (d3 p) 2) (zn (d3 p) 1) l eps g x d))
    (fun p b1 _ o v => nrmz l eps (zn (fl (hd (BF []) b1)) 0) (zn (fl (hd (BF []) b1)) 1) (pr (fl (hd (BF []) (tl b1)))
       (cz [zn (d3 p) 0; zn (d3 p) 1; zn (d3 p) 2] 0 o + zn (d3 p) 0 * cz [zn (d3 p) 0; zn (d3 p) 1; zn (d3 p) 2] 2 o)) v))|].
  - assumption.
  - assumption.
  - rewrite normalize_submits by assumption. reflexivity.
  - intros [i j] Hx. apply sg_xs_In in Hx. cbn [fst snd] in Hx. apply sg_bound; tauto || assumption.
  - auto.
  - intros [i j] h Hx. apply sg_xs_In in Hx. cbn [fst snd] in *. rewrite sq_ntiles in Hx by assumption. cbn [In].
    intros [[<-|[<-|[]]]|[[]|[]]]; apply disj_notin; try assumption; [lia|tauto].
  - intros; discriminate.
  - intros [i j] st d sc Hx Ht Hl Hsc. apply sg_xs_In in Hx. cbn [fst snd] in Hx. destruct Hx as [Hi Hj].
    destruct sc; [|discriminate]. exists []. split; [|reflexivity].
    destruct (sg_sizes dst (sq ms) axis HB HQ Hq i j Hi Hj) as (D0 & D1 & D2 & _ & T1 & T2 & _). cbv zeta in *.
    fold (d3 (i, j)) in D0, D1, D2, T1, T2.
    pose proof Hi as Hi'. rewrite sq_ntiles in Hi' by assumption.
    destruct (bufF s st ms i Ht S1 Hi') as (x & E & Hll).
    destruct (bufF s st gb 0 Ht S3 ltac:(lia)) as (g & E' & Hll').
    cbn [map app fst]. rewrite E, E'. cbn [wrap3 app].
    rewrite sq_tsz in Hll by assumption.
    rewrite k_normalize_ok by (assumption || congruence). bnd. rewrite T2. reflexivity.
  - intros s' _ [H1 H2]. split; [|assumption]. intros idx Hi. rewrite H1 by assumption.
    rewrite (sg_filter dst (sq ms) axis) by assumption. cbn [fold_left map hd tl fst].
    pose proof (pbc_value s idx Hm Hi) as V. cbv zeta in V. cbn [fst] in V. rewrite V. f_equal; unfold elem; rewrite ?Ht0, ?Ht1, ?Ho0, ?Ho1; reflexivity.
Qed.
End Norm.
End Bcast.

(** ** logsumexp *)
Section Lse.
Variables (src dst : tensor).
Hypothesis (HA : wft src) (HB : wft dst).
Definition lse_match : Prop := t_shape src = 2 :: t_shape dst /\ t_base src = 2 :: t_base dst.
Lemma logsumexp_checks : checks lse_match (logsumexp_check src dst).
Proof.
  unfold logsumexp_check. rewrite !t_ndim_eq by assumption.
  pose proof (wf_len _ HA) as LA. pose proof (wf_len _ HB) as LB.
  set (n := zlen (t_shape src)) in *. set (n' := zlen (t_shape dst)) in *.
  apply (checks_iff (n - 1 = n' /\ n <> 0 /\ zn (t_shape src) 0 = 2 /\ zn (t_base src) 0 = 2 /\
    (forall i, 0 <= i < n - 1 -> zn (t_shape src) (i + 1) = zn (t_shape dst) i /\ zn (t_base src) (i + 1) = zn (t_base dst) i))).
  { unfold lse_match. split.
    - intros (E & Hn & S0 & B0 & H).
      assert (D : forall l k : list Z, zlen l = n -> zlen k = n' -> zn l 0 = 2 -> (forall i, 0 <= i < n - 1 -> zn l (i + 1) = zn k i) -> l = 2 :: k).
      { intros l k Hl Hk Hz A. destruct l as [|x l]; [change (zlen (@nil Z)) with 0 in Hl; lia|].
        change (x = 2) in Hz. rewrite zlen_cons in Hl. rewrite Hz. f_equal. apply list_ext; [lia|]. intros i Hi.
        rewrite <- A by lia. rewrite zn_consS by lia. f_equal. lia. }
      split; apply D; try assumption; try reflexivity; try lia; intros i Hi; apply H; assumption.
    - intros (E1 & E2). assert (n = n' + 1) by (unfold n, n'; rewrite E1, zlen_cons; lia).
      pose proof (zlen_nonneg (t_shape dst)) as Hnn. fold n' in Hnn.
      split; [lia|]. split; [lia|]. rewrite E1, E2. split; [reflexivity|]. split; [reflexivity|].
      intros i Hi. rewrite !zn_consS by lia. rewrite Z.add_simpl_r. auto. }
  pose proof (zlen_nonneg (t_shape src)) as Hnn. fold n in Hnn.
  apply checks_eq. intros E. apply checks_if; [intros X; apply Z.eqb_eq in X; lia|intros X; apply Z.eqb_neq in X; lia|]. intros H0.
  rewrite rd_ok' by (fold n; lia). apply checks_eq. intros S0. rewrite rd_ok' by lia. apply checks_eq. intros B0.
  apply checks_for. intros i Hi. apply check_dim_checks; auto; fold n n'; lia.
Qed.
Theorem logsumexp_runs s : lse_match -> disj src dst -> stored KF s src -> stored KF s dst ->
  runs (logsumexp_async src dst) s (fun s' =>
    (forall idx, inb (t_shape dst) idx ->
       elem s' dst idx = o_add (elem s src (0 :: idx)) (o_log (elem s src (1 :: idx)))) /\
    frame [dst] s s').
Proof.
  intros Hm Hd S1 S2. assert (Hp : pairt src) by (destruct Hm; eexists _, _; eauto).
  assert (E1 : t_shape (sq src) = t_shape dst).
  { pose proof (sq_shape src Hp) as E. destruct Hm as [E' _]. rewrite E' in E. inversion E. reflexivity. }
  assert (E2 : t_base (sq src) = t_base dst).
  { pose proof (sq_base src Hp) as E. destruct Hm as [_ E']. rewrite E' in E. inversion E. reflexivity. }
  assert (En : ntiles src = ntiles dst). { rewrite <- (sq_ntiles src Hp). apply ntiles_ext; assumption. }
  eapply runs_weaken; [apply (acc_elem dst (zrange (ntiles dst)) (fun i => i) (fun _ => MW)
    (fun i => [th src i]) (fun _ => []) (fun _ => [])
    (fun i => wrap2 (k_logsumexp (tsz dst i)))
    (fun i b1 _ o v => o_add (fst (pr (fl (hd (BF []) b1)) o)) (o_log (snd (pr (fl (hd (BF []) b1)) o)))))|].
  - assumption.
  - assumption.
  - unfold logsumexp_async. rewrite (checks_true _ _ logsumexp_checks) by assumption. bnd.
    rewrite t_ntiles_eq by assumption. rewrite (for_map _ _ (fun i => logsumexp_submit (tsz dst i) (th src i) (th dst i))).
    + reflexivity.
    + intros i acc Hi. rewrite !get_tile_handle_ok, get_tile_traits_ok by (assumption || congruence). bnd. bnd. bnd. reflexivity.
  - intros i Hi. apply zrange_In. assumption.
  - auto.
  - intros i h Hx. apply zrange_In in Hx. intros [[<-|[]]|[[]|[]]]. apply disj_notin; try assumption. congruence.
  - reflexivity.
  - intros i st d sc Hx Ht Hl Hsc. apply zrange_In in Hx. destruct sc; [|discriminate]. exists []. split; [|reflexivity].
    destruct (bufF s st src i Ht S1 ltac:(congruence)) as (l & E & Hll). cbn [map app]. rewrite E. cbn [wrap2 app].
    rewrite sq_tsz in Hll by assumption. rewrite (tsz_ext (sq src) dst) in Hll by assumption.
    pose proof (tsz_pos dst i HB Hx) as Hpos.
    rewrite k_logsumexp_ok by (assumption || lia). reflexivity.
  - intros s' _ [H1 H2]. split; [|assumption]. intros idx Hi. rewrite H1 by assumption.
    rewrite (filter_single _ _ (etile dst idx)).
    + cbn [fold_left map hd]. assert (Hi' : inb (t_shape (sq src)) idx) by (rewrite E1; assumption).
      pose proof (pelem_pr s src idx HA Hp Hi') as E. unfold pelem in E.
      rewrite (etile_ext (sq src) dst), (eoff_ext (sq src) dst) in E by assumption. rewrite <- E. reflexivity.
    + apply NoDup_zrange.
    + apply zrange_In. apply etile_bound; assumption.
    + apply Z.eqb_refl.
    + intros y Hy E. apply Z.eqb_eq in E. assumption.
Qed.
End Lse.
End R.
