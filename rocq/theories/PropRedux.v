(** * C35: accumulation in reduction mode gives the sequential result

    [redux_runs init red r s P] (Redux.v): the operation submits its tasks, and however the runtime
    spreads them over private copies (created by [init], combined by [red], in any order and grouping)
    no step fails, the execution can always be completed, and every completed execution ends in [P].
    [P] is, for each operation, the result proved for the ordered execution. *)
From Coq Require Import Reals Lra Lia Permutation.
From Verif Require Import Base Spec Geometry Traits TraitsProofs Runtime Ops TensorSem ElemGeneric OneOut
  KernelsElem ElemOps Axis AccRuns Loops SliceOps SliceGeo SliceProofs SliceReduce SplitGeo MatOps MatProofs GemmProofs GemmRuns RealOps RSum Concrete
  Sequence Serial KeepRuns PropElem PropElemR PropSlice FiberOps FiberGeo FiberProofs FiberReduce PropFiber PropMat
  LossOps LossProofs EmbedRuns EmbedReal PropLoss PropElem2 Redux ReduxRuns.
Local Open Scope R_scope.

(** ** The two codelets over the reals *)
Lemma accumulate_R (a b : list R) : zlen a = zlen b ->
  accumulate_cpu [BF a; BF b] = Ok [BF (ztab (zlen a) (fun o => zn a o + zn b o)); BF b].
Proof.
  intros E. unfold accumulate_cpu. assert (G : forall n, zlen a = n -> zlen b = n ->
    k_add n o_one b o_one a = Ok (ztab n (fun i => 1 * zn b i + 1 * zn a i))).
  { intros n Ha Hb. unfold k_add. kmap (fun (i : Z) (x : R) => 1 * zn b i + 1 * x). }
  rewrite (G (zlen a)) by auto. bnd. do 3 f_equal. apply ztab_ext. intros o _. ring.
Qed.
Lemma accumulate_hypot_R (a b : list R) : zlen a = zlen b ->
  accumulate_hypot_cpu [BF a; BF b] = Ok [BF (ztab (zlen a) (fun o => Rhypot (zn a o) (zn b o))); BF b].
Proof.
  intros E. unfold accumulate_hypot_cpu. assert (G : forall n, zlen a = n -> zlen b = n ->
    k_hypot n o_one b o_one a = Ok (ztab n (fun i => Rhypot (1 * zn b i) (1 * zn a i)))).
  { intros n Ha Hb. unfold k_hypot. cbn [o_eqb o_one o_zero Rops]. destruct (Reqb 1 0) eqn:Q; [apply Reqb_true in Q; lra|].
    kmap (fun (i : Z) (x : R) => Rhypot (1 * zn b i) (1 * x)). }
  rewrite (G (zlen a)) by auto. bnd. do 3 f_equal. apply ztab_ext. intros o _. unfold Rhypot. f_equal. ring.
Qed.
Lemma Rhypot_comm a b : Rhypot a b = Rhypot b a.
Proof. unfold Rhypot. f_equal. ring. Qed.
Lemma Rhypot_sq a b : Rhypot a b * Rhypot a b = a * a + b * b.
Proof. unfold Rhypot. apply sqrt_sqrt. nra. Qed.
Lemma Rhypot_assoc a b c : Rhypot (Rhypot a b) c = Rhypot a (Rhypot b c).
Proof. unfold Rhypot at 1 3. rewrite !Rhypot_sq. f_equal. ring. Qed.
Lemma Rhypot_neut a c : Rhypot (Rhypot a 0) c = Rhypot a c.
Proof. unfold Rhypot at 1 3. rewrite Rhypot_sq. f_equal. ring. Qed.

(** ** Operations in reduction mode *)
Lemma runs_keep_nil (r : res (list (task R))) s P : runs r s P -> runs_keep [] r s P.
Proof. intros H. apply runs_runs_keep; [assumption|]. intros ? ? ? ? ? _ _ _ _ []. Qed.

(** Tasks that add to [D] in reduction mode, given by their kernel. *)
Lemma adds_srcs op ks D s (srcs : list (tensor * Z)) i body (C : list (list R) -> Z -> R) : wft D ->
  (forall q, In q srcs -> wft (fst q) /\ stored KF s (fst q) /\ (0 <= snd q < ntiles (fst q))%Z /\ disj (fst q) D) -> (0 <= i < ntiles D)%Z ->
  (forall ls d, Forall2 (fun l q => zlen l = tsz (fst q) (snd q)) ls srcs -> zlen d = tsz D i ->
     body (map BF ls ++ [BF d]) = Ok (map BF ls ++ [BF (ztab (tsz D i) (fun o => op (zn d o) (C ls o)))])) ->
  adds op ks D s (mkTask (map (fun q => (th (fst q) (snd q), MR)) srcs ++ [(th D i, MREDUX)]) body).
Proof.
  intros HD Hs Hi Hb. exists (map (fun q => th (fst q) (snd q)) srcs), i, (fun bs => C (map fl bs)). cbn [t_acc t_body].
  split; [rewrite map_map; reflexivity|]. split; [assumption|]. split.
  - intros h Hin. apply in_map_iff in Hin as ([t j] & <- & Hq). destruct (Hs _ Hq) as (W & _ & Hj & Dj). cbn [fst snd] in *.
    intros Q. apply (Dj _ (th_In t j W Hj) Q).
  - intros st d [Hti _] Hd. rewrite !map_map.
    assert (Hls : exists ls, map (fun q => st (th (fst q) (snd q))) srcs = map BF ls /\ Forall2 (fun l q => zlen l = tsz (fst q) (snd q)) ls srcs).
    { clear Hb. induction srcs as [|[t j] srcs IH]; [exists []; split; [reflexivity|constructor]|].
      destruct IH as (ls & E & F); [intros; apply Hs; right; assumption|]. destruct (Hs (t, j) ltac:(left; reflexivity)) as (W & St & Hj & _). cbn [fst snd] in *.
      destruct (bufF s st t j Hti St Hj) as (l & El & Ll). exists (l :: ls). cbn [map fst snd]. rewrite El, E. split; [reflexivity|constructor; assumption]. }
    destruct Hls as (ls & E & F). rewrite E. rewrite (Hb ls d F Hd). do 3 f_equal. f_equal. apply ztab_ext. intros o _. do 2 f_equal.
    rewrite <- map_map with (g := fl). rewrite E, map_map. symmetry. apply map_id.
Qed.

Lemma unred_rmode (beta : R) : unred_mode (rmode true beta) = rmode false beta.
Proof. unfold rmode. destruct (o_eqb beta o_zero), (o_eqb beta o_one); reflexivity. Qed.
Lemma rmode_R (beta : R) : (rmode true beta = MREDUX /\ beta = 1) \/ rmode true beta = MW \/ rmode true beta = MRW.
Proof.
  unfold rmode. destruct (o_eqb beta o_zero); auto. destruct (o_eqb beta o_one) eqn:E; auto. left. split; [reflexivity|]. apply Reqb_true in E. assumption.
Qed.
Lemma ordered_map (T : Type) (X : Type) (f : X -> handle) (srcs : list X) h m body : m = MW \/ m = MRW ->
  ordered_task (T:=T) (mkTask (map (fun q => (f q, MR)) srcs ++ [(h, m)]) body).
Proof.
  intros Hm k m' Hin. cbn [t_acc] in Hin. apply in_app_or in Hin as [Hin|[Q|[]]].
  - apply in_map_iff in Hin as (q & Q & _). inversion Q. split; discriminate.
  - inversion Q; subst. destruct Hm as [-> | ->]; split; discriminate.
Qed.

Definition redux_add (r : res (list (task R))) s P : Prop := redux_runs clear_cpu accumulate_cpu r s P.
Definition redux_hypot (r : res (list (task R))) s P : Prop := redux_runs clear_cpu accumulate_hypot_cpu r s P.

Lemma add_transport ks D s ts ts0 P : wft D -> stored KF s D -> (forall t, In t ks -> disj t D) ->
  runs_keep ks (Ok ts0) s P -> map unred ts = ts0 -> (forall t, In t ts -> ordered_task t \/ adds Rplus ks D s t) -> redux_add (Ok ts) s P.
Proof.
  intros HD SD Hks HR E Ht. subst ts0. eapply (redux_transport Rplus 0); try eassumption.
  - apply Rplus_comm.
  - apply Rplus_assoc.
  - intros. lra.
  - reflexivity.
  - apply accumulate_R.
Qed.
Lemma hypot_transport ks D s ts ts0 P : wft D -> stored KF s D -> (forall t, In t ks -> disj t D) ->
  runs_keep ks (Ok ts0) s P -> map unred ts = ts0 -> (forall t, In t ts -> ordered_task t \/ adds Rhypot ks D s t) -> redux_hypot (Ok ts) s P.
Proof.
  intros HD SD Hks HR E Ht. subst ts0. eapply (redux_transport Rhypot 0); try eassumption.
  - apply Rhypot_comm.
  - apply Rhypot_assoc.
  - apply Rhypot_neut.
  - reflexivity.
  - apply accumulate_hypot_R.
Qed.

Theorem C35_sum_slice (alpha beta : R) src dst axis s : wf_tensor src -> wf_tensor dst ->
  slice_match src dst axis -> disj src dst -> stored KF s src -> stored KF s dst ->
  redux_add (sum_slice_async alpha src beta dst axis true) s (fun s' =>
    (forall idx, inb (t_shape dst) idx ->
       elem s' dst idx = beta * elem s dst idx + alpha * Rsum (zn (t_shape src) axis) (fun k => elem s src (ins axis k idx))) /\
    frame [dst] s s').
Proof.
  intros Ws Wd Hm Hdj S1 S2. pose proof (proj1 (C16_sum_slice alpha beta src dst axis s Ws Wd) Hm Hdj S1 S2) as HR.
  apply wf_wft in Ws, Wd. rewrite sum_slice_submits in * by assumption.
  eapply (add_transport [] dst); [assumption|assumption|intros ? []|apply runs_keep_nil; exact HR| |].
  - rewrite map_map. apply map_ext. intros p. unfold unred, sum_slice_submit. cbn [t_acc t_body map fst snd unred_mode]. rewrite unred_rmode. reflexivity.
  - intros t Ht. apply in_map_iff in Ht as ([i j] & <- & Hp). apply in_prod_iff in Hp as [Hi Hj]. apply zrange_In in Hi, Hj. unfold sum_slice_submit. cbn [fst snd].
    destruct (rmode_R (bj beta j)) as [[-> Eb]|Hr]; [right|left; apply (ordered_map R Z (fun q => q) [_]); assumption].
    destruct (sg_sizes src dst axis Ws Wd Hm i j Hi Hj) as (D0 & D1 & D2 & _ & T1 & T2 & T3). cbv zeta in *.
    apply (adds_srcs Rplus [] dst s [(src, sg_out src dst axis (i, j))] i _
      (fun ls o => alpha * fst (ksum (zn (dim3 axis (tsh src (sg_out src dst axis (i, j)))) 1)
         (fun x => zn (hd [] ls) (cz [zn (dim3 axis (tsh src (sg_out src dst axis (i, j)))) 0; zn (dim3 axis (tsh src (sg_out src dst axis (i, j)))) 2] 0 o + zn (dim3 axis (tsh src (sg_out src dst axis (i, j)))) 0 * (x + zn (dim3 axis (tsh src (sg_out src dst axis (i, j)))) 1 * cz [zn (dim3 axis (tsh src (sg_out src dst axis (i, j)))) 0; zn (dim3 axis (tsh src (sg_out src dst axis (i, j)))) 2] 1 o))%Z)))); [assumption| |assumption|].
    + intros q [<-|[]]. cbn [fst snd]. repeat (split; [assumption|]). split; [|assumption]. apply sg_bound; assumption.
    + intros ls d F Hd. inversion F as [|l q ls' qs Hl F']; subst. inversion F'; subst. cbn [fst snd map app hd] in *. cbn [wrap2].
      rewrite k_sum_slice_ok; [|assumption..|congruence|congruence]. bnd. rewrite T1. do 4 f_equal. apply ztab_ext. intros o _.
      rewrite ksum_R by lia. rewrite Eb, kres_R. cbn [fst]. ring.
Qed.

Theorem C35_sumprod_slice (alpha beta : R) src1 src2 dst axis s : wf_tensor src1 -> wf_tensor src2 -> wf_tensor dst ->
  slice_match src1 dst axis -> t_shape src2 = t_shape src1 -> t_base src2 = t_base src1 -> disj src1 dst -> disj src2 dst ->
  stored KF s src1 -> stored KF s src2 -> stored KF s dst ->
  redux_add (sumprod_slice_async alpha src1 src2 beta dst axis true) s (fun s' =>
    (forall idx, inb (t_shape dst) idx ->
       elem s' dst idx = beta * elem s dst idx +
         alpha * Rsum (zn (t_shape src1) axis) (fun k => elem s src1 (ins axis k idx) * elem s src2 (ins axis k idx))) /\
    frame [dst] s s').
Proof.
  intros Ws Ws2 Wd Hm Es Eb Hdj Hdj2 S1 S3 S2. pose proof (proj1 (C19_sumprod_slice_partial alpha beta src1 src2 dst axis s Ws Ws2 Wd Eb) Hm Es Hdj Hdj2 S1 S3 S2) as HR.
  apply wf_wft in Ws, Ws2, Wd. rewrite sumprod_slice_submits in * by assumption.
  eapply (add_transport [] dst); [assumption|assumption|intros ? []|apply runs_keep_nil; exact HR| |].
  - rewrite map_map. apply map_ext. intros p. unfold unred, sumprod_slice_submit. cbn [t_acc t_body map fst snd unred_mode]. rewrite unred_rmode. reflexivity.
  - intros t Ht. apply in_map_iff in Ht as ([i j] & <- & Hp). apply in_prod_iff in Hp as [Hi Hj]. apply zrange_In in Hi, Hj. unfold sumprod_slice_submit. cbn [fst snd].
    destruct (rmode_R (bj beta j)) as [[-> Ebj]|Hr]; [right|left; apply (ordered_map R Z (fun q => q) [_; _]); assumption].
    destruct (sg_sizes src1 dst axis Ws Wd Hm i j Hi Hj) as (D0 & D1 & D2 & _ & T1 & T2 & T3). cbv zeta in *.
    pose proof (sg_bound src1 dst axis Ws Wd Hm i j Hi Hj) as Hb.
    set (o1 := sg_out src1 dst axis (i, j)) in *. set (d3 := dim3 axis (tsh src1 o1)) in *.
    apply (adds_srcs Rplus [] dst s [(src1, o1); (src2, o1)] i _
      (fun ls o => alpha * fst (ksum (zn d3 1)
         (fun x => let q := (cz [zn d3 0; zn d3 2] 0 o + zn d3 0 * (x + zn d3 1 * cz [zn d3 0; zn d3 2] 1 o))%Z in zn (hd [] ls) q * zn (hd [] (tl ls)) q)))); [assumption| |assumption|].
    + intros q [<-|[<-|[]]]; cbn [fst snd]; (split; [assumption|]); (split; [assumption|]); (split; [|assumption]); [assumption|]. rewrite (ntiles_ext src2 src1) by assumption. assumption.
    + intros ls d F Hd. inversion F as [|l q ls' qs Hl F']; subst. inversion F' as [|l2 q ls'' qs Hl2 F'']; subst. inversion F''; subst. cbn [fst snd map app hd tl] in *.
      rewrite (tsz_ext src2 src1) in Hl2 by assumption. cbn [wrap3].
      rewrite k_sumprod_slice_ok; [|assumption..|congruence|congruence|congruence]. bnd. rewrite T1. do 5 f_equal. apply ztab_ext. intros o _.
      rewrite !ksum_R by lia. rewrite Ebj, kres_R. cbn [fst o_mul Rops]. ring.
Qed.

Theorem C35_norm_slice (alpha beta : R) src dst axis s : wf_tensor src -> wf_tensor dst ->
  slice_match src dst axis -> disj src dst -> stored KF s src -> stored KF s dst ->
  redux_hypot (norm_slice_async alpha src beta dst axis true) s (fun s' =>
    (forall idx, inb (t_shape dst) idx ->
       elem s' dst idx = sqrt ((beta * elem s dst idx) * (beta * elem s dst idx) +
         alpha * alpha * Rsum (zn (t_shape src) axis) (fun k => elem s src (ins axis k idx) * elem s src (ins axis k idx)))) /\
    frame [dst] s s').
Proof.
  intros Ws Wd Hm Hdj S1 S2. pose proof (proj1 (C18_norm_slice alpha beta src dst axis s Ws Wd) Hm Hdj S1 S2) as HR.
  apply wf_wft in Ws, Wd. rewrite norm_slice_submits in * by assumption.
  eapply (hypot_transport [] dst); [assumption|assumption|intros ? []|apply runs_keep_nil; exact HR| |].
  - rewrite map_map. apply map_ext. intros p. unfold unred, norm_slice_submit. cbn [t_acc t_body map fst snd unred_mode]. rewrite unred_rmode. reflexivity.
  - intros t Ht. apply in_map_iff in Ht as ([i j] & <- & Hp). apply in_prod_iff in Hp as [Hi Hj]. apply zrange_In in Hi, Hj. unfold norm_slice_submit. cbn [fst snd].
    destruct (rmode_R (bj beta j)) as [[-> Eb]|Hr]; [right|left; apply (ordered_map R Z (fun q => q) [_]); assumption].
    destruct (sg_sizes src dst axis Ws Wd Hm i j Hi Hj) as (D0 & D1 & D2 & _ & T1 & T2 & T3). cbv zeta in *.
    pose proof (sg_bound src dst axis Ws Wd Hm i j Hi Hj) as Hb.
    set (o1 := sg_out src dst axis (i, j)) in *. set (d3 := dim3 axis (tsh src o1)) in *.
    apply (adds_srcs Rhypot [] dst s [(src, o1)] i _
      (fun ls o => let f := fun x => zn (hd [] ls) (cz [zn d3 0; zn d3 2] 0 o + zn d3 0 * (x + zn d3 1 * cz [zn d3 0; zn d3 2] 1 o))%Z in
         sqrt (alpha * alpha * Rsum (zn d3 1) (fun x => f x * f x)))); [assumption| |assumption|].
    + intros q [<-|[]]. cbn [fst snd]. repeat (split; [assumption|]). assumption.
    + intros ls d F Hd. inversion F as [|l q ls' qs Hl F']; subst. inversion F'; subst. cbn [fst snd map app hd] in *. cbn [wrap2].
      rewrite k_norm_slice_ok; [|assumption..|congruence|congruence]. bnd. rewrite T1. do 4 f_equal. apply ztab_ext. intros o _. cbv zeta.
      rewrite nres_R by lia. rewrite Eb. unfold Rhypot. f_equal. rewrite sqrt_sqrt; [ring|].
      apply Rmult_le_pos; [nra|]. apply Rsuml_nonneg. intros. nra.
Qed.

Theorem C35_sum_fiber (alpha beta : R) src dst axis b s : wf_tensor src -> wf_tensor dst -> (0 <= b)%Z ->
  fiber_match src dst axis b -> disj src dst -> stored KF s src -> stored KF s dst ->
  redux_add (sum_fiber_async alpha src beta dst axis b true) s (fun s' =>
    (forall d, inb (t_shape dst) d -> elem s' dst d = beta * elem s dst d + alpha * fiber_sum (t_shape src) axis b d (elem s src)) /\
    frame [dst] s s').
Proof.
  intros Ws Wd Hbn Hm Hdj S1 S2. pose proof (proj1 (C17_sum_fiber alpha beta src dst axis b s Ws Wd Hbn) Hm Hdj S1 S2) as HR.
  apply wf_wft in Ws, Wd. rewrite sum_fiber_submits in * by assumption.
  eapply (add_transport [] dst); [assumption|assumption|intros ? []|apply runs_keep_nil; exact HR| |].
  - rewrite map_map. apply map_ext. intros i. unfold unred, sum_fiber_submit. cbn [t_acc t_body map fst snd unred_mode].
    destruct (fg_first src axis b i); rewrite ?unred_rmode; [|reflexivity]. destruct (rmode_cases (bi src axis b beta i)) as [-> | ->]; reflexivity.
  - intros t Ht. apply in_map_iff in Ht as (i & <- & Hi). apply zrange_In in Hi. unfold sum_fiber_submit. cbn [fst snd].
    destruct (fg_first src axis b i) eqn:Ef; [left; apply (ordered_map R Z (fun q => q) [_]); apply rmode_cases|].
    destruct (rmode_R (bi src axis b beta i)) as [[-> Eb]|Hr]; [right|left; apply (ordered_map R Z (fun q => q) [_]); assumption].
    destruct (fg_sizes src dst axis b Ws Hm i Hi) as (D0 & D1 & D2 & D3 & T1 & T2 & _).
    pose proof (fg_bound src dst axis b Ws Hm i Hi) as Hb. set (d4 := dim4 axis b (tsh src i)) in *.
    apply (adds_srcs Rplus [] dst s [(src, i)] (fg_out src dst axis b i) _
      (fun ls o => alpha * fst (ksum2 (zn d4 2) (zn d4 0)
         (fun j k => zn (hd [] ls) (k + zn d4 0 * (cz [zn d4 1; zn d4 3] 0 o + zn d4 1 * (j + zn d4 2 * cz [zn d4 1; zn d4 3] 1 o)))%Z)))); [assumption| |assumption|].
    + intros q [<-|[]]. cbn [fst snd]. repeat (split; [assumption|]). assumption.
    + intros ls d F Hd. inversion F as [|l q ls' qs Hl F']; subst. inversion F'; subst. cbn [fst snd map app hd] in *. cbn [wrap2].
      rewrite k_sum_fiber_ok; [|assumption..|congruence|congruence]. bnd. rewrite T2. do 4 f_equal. apply ztab_ext. intros o _.
      rewrite !ksum2_R. rewrite Eb, fres_R. cbn [fst]. ring.
Qed.

Theorem C35_gemm (alpha beta : R) tA tB A B C ndim batch s sm sk sn sb bm bk bn bb : wf_tensor A -> wf_tensor B -> wf_tensor C ->
  t_shape A = op_dims tA sm sk sb -> t_base A = op_dims tA bm bk bb ->
  t_shape B = op_dims tB sk sn sb -> t_base B = op_dims tB bk bn bb ->
  t_shape C = (sm ++ sn ++ sb)%list -> t_base C = (bm ++ bn ++ bb)%list ->
  zlen sk = ndim -> zlen bk = ndim -> zlen sb = batch -> zlen bb = batch ->
  disj A C -> disj B C -> stored KF s A -> stored KF s B -> stored KF s C ->
  redux_add (gemm_async alpha tA A tB B beta C ndim batch true) s (fun s' =>
    (forall mi ni bi, inb sm mi -> inb sn ni -> inb sb bi ->
       elem s' C (mi ++ ni ++ bi) = beta * elem s C (mi ++ ni ++ bi) +
         alpha * Rsuml (all_idx sk) (fun ki => elem s A (op_dims tA mi ki bi) * elem s B (op_dims tB ki ni bi))) /\
    frame [C] s s').
Proof.
  intros WA WB WC E1 F1 E2 F2 E3 F3 L1 L1' L2 L2' DA DB SA SB SC.
  pose proof (C28_gemm alpha beta tA tB A B C ndim batch s sm sk sn sb bm bk bn bb WA WB WC E1 F1 E2 F2 E3 F3 L1 L1' L2 L2' DA DB SA SB SC) as HR.
  apply wf_wft in WA, WB, WC.
  assert (Hm : gemm_match tA tB A B C ndim batch) by (split; [exists sm, sk, sn, sb|exists bm, bk, bn, bb]; auto).
  destruct (gemm_lengths tA A C sm sk sn sb bm bk bn bb WA WC E1 F1 E3 F3) as (G1 & G2 & G3 & G4); [congruence..|]. subst ndim batch.
  rewrite (gemm_tasks tA tB A B C sm sk sn sb bm bk bn bb) in * by assumption.
  eapply (add_transport [] C); [assumption|assumption|intros ? []|apply runs_keep_nil; exact HR| |].
  - rewrite map_map. apply map_ext. intros p. unfold unred, gemm_task, gemm_submit. fold (rmode true (bj beta (snd p))). fold (rmode false (bj beta (snd p))).
    cbn [t_acc t_body map fst snd unred_mode]. rewrite unred_rmode. reflexivity.
  - intros t Ht. apply in_map_iff in Ht as (p & <- & Hp). unfold gemm_task, gemm_submit. cbv zeta. fold (rmode true (bj beta (snd p))).
    destruct (rmode_R (bj beta (snd p))) as [[-> Eb]|Hr]; [right|left; apply (ordered_map R Z (fun q => q) [_; _]); assumption].
    destruct (A_tile tA A C sm sk sn sb bm bk bn bb) with (p := p) as (A1 & _ & A2); try assumption.
    destruct (B_tile tA tB A B C sm sk sn sb bm bk bn bb) with (p := p) as (B1 & B2); try assumption.
    destruct (xs_In C sk bk p Hp) as [X1 X2].
    destruct (C_tile tA A C sm sk sn sb bm bk bn bb) with (c := fst p) as [_ C2]; try assumption.
    destruct (c_bounds tA A C sm sk sn sb bm bk bn bb) with (c := fst p) as (Y1 & Y2 & Y3 & _); try assumption.
    destruct (gm_geo tA A C sm sk sn sb bm bk bn bb) as (Q1 & Q2 & Q3 & Q4); try assumption.
    pose proof (rsz_pos Q1 _ Y1) as P1. pose proof (rsz_pos Q3 _ Y2) as P2. pose proof (rsz_pos Q2 _ X2) as P3. pose proof (rsz_pos Q4 _ Y3) as P4.
    set (i := ci sm sn sb bm bn bb (fst p)) in *. set (j := cj sm sn sb bm bn bb (fst p)) in *. set (q := cb sm sn sb bm bn bb (fst p)) in *.
    set (M := rsz sm bm i) in *. set (N := rsz sn bn j) in *. set (K := rsz sk bk (snd p)) in *. set (Bt := rsz sb bb q) in *.
    apply (adds_srcs Rplus [] C s [(A, tA_of tA sm sk sn sb bm bk bn bb p); (B, tB_of tB sm sk sn sb bm bk bn bb p)] (fst p) _
      (fun ls o => alpha * gdot tA tB M N K (hd [] ls) (hd [] (tl ls)) (cz [M; N; Bt] 2 o * (M * K))%Z (cz [M; N; Bt] 2 o * (N * K))%Z
         (cz [M; N; Bt] 0 o) (cz [M; N; Bt] 1 o))); [assumption| |assumption|].
    + intros r [<-|[<-|[]]]; cbn [fst snd]; (split; [assumption|]); (split; [assumption|]); (split; [|assumption]); assumption.
    + intros ls d F Hd. inversion F as [|l r ls' qs Hl F']; subst. inversion F' as [|l2 r ls'' qs Hl2 F'']; subst. inversion F''; subst. cbn [fst snd map app hd tl] in *.
      cbn [wrap3]. rewrite k_gemm_ok; [|assumption..|congruence|congruence|congruence]. bnd. rewrite C2. do 5 f_equal. apply ztab_ext. intros o _.
      cbv zeta. rewrite Eb, gm_R. cbn [o_mul Rops]. ring.
Qed.

Theorem C35_sumprod_fiber (alpha beta : R) src1 src2 dst axis s : wf_tensor src1 -> wf_tensor src2 -> wf_tensor dst ->
  fiber_match src1 dst axis 0 -> t_shape src2 = t_shape src1 -> t_base src2 = t_base src1 -> disj src1 dst -> disj src2 dst ->
  stored KF s src1 -> stored KF s src2 -> stored KF s dst ->
  redux_add (sumprod_fiber_async alpha src1 src2 beta dst axis true) s (fun s' =>
    (forall d, inb (t_shape dst) d ->
       elem s' dst d = beta * elem s dst d + alpha * fiber_sum (t_shape src1) axis 0 d (fun idx => elem s src1 idx * elem s src2 idx)) /\
    frame [dst] s s').
Proof.
  intros Ws Ws2 Wd Hm Es Eb Hdj Hdj2 S1 S3 S2. pose proof (proj1 (C19_sumprod_fiber_partial alpha beta src1 src2 dst axis s Ws Ws2 Wd Eb) Hm Es Hdj Hdj2 S1 S3 S2) as HR.
  apply wf_wft in Ws, Ws2, Wd. rewrite sumprod_fiber_submits in * by assumption.
  eapply (add_transport [] dst); [assumption|assumption|intros ? []|apply runs_keep_nil; exact HR| |].
  - rewrite map_map. apply map_ext. intros i. unfold unred, sumprod_fiber_submit. cbn [t_acc t_body map fst snd unred_mode].
    destruct (fg_first src1 axis 0 i); rewrite ?unred_rmode; [|reflexivity]. destruct (rmode_cases (bi src1 axis 0 beta i)) as [-> | ->]; reflexivity.
  - intros t Ht. apply in_map_iff in Ht as (i & <- & Hi). apply zrange_In in Hi. unfold sumprod_fiber_submit. cbn [fst snd].
    destruct (fg_first src1 axis 0 i) eqn:Ef; [left; apply (ordered_map R Z (fun q => q) [_; _]); apply rmode_cases|].
    destruct (rmode_R (bi src1 axis 0 beta i)) as [[-> Ebi]|Hr]; [right|left; apply (ordered_map R Z (fun q => q) [_; _]); assumption].
    destruct (sizes1 dst src1 axis Ws i Hm Hi) as (D0 & D1 & D2 & T1 & T2 & Hfb).
    set (d4 := dim4 axis 0 (tsh src1 i)) in *.
    apply (adds_srcs Rplus [] dst s [(src1, i); (src2, i)] (fg_out src1 dst axis 0 i) _
      (fun ls o => alpha * psum2 (zn d4 2) (zn d4 0) (fun j k =>
         let q := (k + zn d4 0 * (o + zn d4 1 * j))%Z in zn (hd [] ls) q * zn (hd [] (tl ls)) q))); [assumption| |assumption|].
    + intros q [<-|[<-|[]]]; cbn [fst snd]; (split; [assumption|]); (split; [assumption|]); (split; [|assumption]); [assumption|]. rewrite (ntiles_ext src2 src1) by assumption. assumption.
    + intros ls d F Hd. inversion F as [|l q ls' qs Hl F']; subst. inversion F' as [|l2 q ls'' qs Hl2 F'']; subst. inversion F''; subst. cbn [fst snd map app hd tl] in *.
      rewrite (tsz_ext src2 src1) in Hl2 by assumption. cbn [wrap3].
      rewrite k_sumprod_fiber_ok; [|assumption..|congruence|congruence|congruence]. bnd. rewrite T2. do 5 f_equal. apply ztab_ext. intros o _.
      rewrite Ebi, spres_R. cbn [o_mul Rops]. ring.
Qed.

Theorem C35_embedding_backward (index vocab embed : tensor) axis (s : store R) : wf_tensor index -> wf_tensor vocab -> wf_tensor embed ->
  emb_match index vocab embed axis -> disj index vocab -> disj embed vocab ->
  stored KI s index -> stored KF s vocab -> stored KF s embed -> indices_ok s index vocab ->
  redux_add (embedding_backward_async index embed vocab axis true) s (fun s' =>
    (forall c v, inb (t_shape vocab) [c; v] ->
       elem s' vocab [c; v] = elem s vocab [c; v] + Rsuml (all_idx (t_shape index)) (fun idx =>
         if (ielem s index idx =? v)%Z then elem s embed (ins axis c idx) else 0)) /\
    frame [vocab] s s').
Proof.
  intros W1 W2 W3 Hm D1 D2 S1 S2 S3 Hix.
  pose proof (C30_embedding_backward index vocab embed axis s W1 W2 W3 Hm D1 D2 S1 S2 S3 Hix) as HR.
  apply wf_wft in W1, W2, W3. rewrite embedding_backward_submits in * by assumption.
  eapply (add_transport [index] vocab); [assumption|assumption|intros t [<-|[]]; assumption|exact HR| |].
  - rewrite map_map. apply map_ext. intros x. reflexivity.
  - intros t0 Ht. apply in_map_iff in Ht as ([i t] & <- & Hx). right. apply eb_xs_In in Hx as [Hi Ht]. cbn [fst snd] in Hi, Ht.
    destruct (em_tile index vocab embed axis) with (i := i) as (Ha & _ & _ & _); try assumption.
    destruct (em_range index vocab embed axis) with (i := i) (t := t) as (Hr & Hk0 & Hkz & Hkk); try assumption.
    destruct (em_vtile index vocab embed axis) with (t := (em_start vocab embed axis i + t)%Z) as (Hn & _ & Ez); try assumption.
    destruct (em_sizes index vocab embed axis) with (i := i) as (M1 & M2 & M3 & T1 & T2); try assumption.
    exists [th index (em_a index embed axis i); th embed i], (em_start vocab embed axis i + t)%Z,
      (fun bs => eb_sum (em_m embed axis i) (em_n embed axis i) (em_k embed axis i) (t * zn (t_base vocab) 0)
        (em_kz vocab (em_start vocab embed axis i + t)) (il (nth 0 bs (BF []))) (fl (nth 1 bs (BF [])))).
    unfold eb_task, eb_out, embedding_backward_submit. cbn [t_acc t_body fst snd map app].
    split; [reflexivity|]. split; [assumption|]. split.
    + intros h [<-|[<-|[]]]; apply disj_notin; assumption.
    + intros st d Hk Hd.
      assert (Es : st (th index (em_a index embed axis i)) = s (th index (em_a index embed axis i))) by (apply (proj2 Hk index); [left; reflexivity|apply th_In; assumption]).
      destruct (ty_BI (s (th index (em_a index embed axis i))) (tsz index (em_a index embed axis i))) as (a & Ea & La); [apply S1; assumption|].
      destruct (bufF s st embed _ (proj1 Hk) S3 Hi) as (b & Eb & Lb).
      cbn [nth]. rewrite Es, Ea, Eb. cbn [embedding_backward_cpu app fl il].
      rewrite (k_embedding_backward_ok _ _ _ _ _ (em_V vocab)); [|assumption|assumption|assumption|assumption|assumption|assumption|congruence|congruence|congruence|].
      * bnd. rewrite Ez. do 5 f_equal. apply ztab_ext. intros o _. apply eb_cell_R; lia.
      * intros p Hp. pose proof (em_index index vocab embed axis W1 W3 Hm s i p Hix Hi Hp) as Q. rewrite Ea in Q. assumption.
Qed.
