(** * C25 (nrm2), C26 (transpose), C27 and C28 (gemm) *)
From Coq Require Import Reals Lra Lia.
From Verif Require Import Base Spec Geometry Traits TraitsProofs Runtime Ops TensorSem ElemGeneric OneOut
  KernelsElem ElemOps Formulas Axis AccRuns Loops SliceOps SliceGeo SliceProofs SliceReduce SplitGeo MatOps MatProofs
  GemmProofs GemmRuns Sequence Nrm2Proofs RealOps RSum Concrete PropElem PropElemR PropSlice.

Local Open Scope Z_scope.

(** ** C26: transpose.  [rot n l] moves the first n entries of l to the end. *)
Section Transpose.
Context {T : Type} {O : Ops T}.

Theorem C26_transpose (alpha : T) src dst ndim s : wf_tensor src -> wf_tensor dst ->
  (transpose_match src dst ndim -> disj src dst -> stored KF s src -> stored KF s dst ->
   runs (transpose_async alpha src dst ndim) s (fun s' =>
     (forall idx, inb (t_shape src) idx -> elem s' dst (rot ndim idx) = o_mul alpha (elem s src idx)) /\
     frame [dst] s s')) /\
  (~ transpose_match src dst ndim -> throws (transpose_async alpha src dst ndim)).
Proof.
  intros Hs Hd. apply wf_wft in Hs, Hd. split.
  - intros Hm Hdj S1 S2. pose proof Hm as (Hn & Es & Eb). pose proof (wf_len _ Hs) as Ls.
    set (k := Z.to_nat ndim).
    assert (Ek : zlen (firstn k (t_shape src)) = ndim) by (unfold zlen, k in *; rewrite firstn_length; lia).
    assert (Ekb : List.length (firstn k (t_shape src)) = List.length (firstn k (t_base src)))
      by (unfold zlen in Ls; rewrite !firstn_length; lia).
    assert (Ekc : List.length (skipn k (t_shape src)) = List.length (skipn k (t_base src)))
      by (unfold zlen in Ls; rewrite !skipn_length; lia).
    assert (Hm' : transpose_match src dst (zlen (firstn k (t_shape src)))) by (rewrite Ek; assumption).
    pose proof (transpose_runs src dst (firstn k (t_shape src)) (skipn k (t_shape src)) (firstn k (t_base src)) (skipn k (t_base src))
      Hs Hd Ekb) as R. rewrite !firstn_skipn in R.
    specialize (R eq_refl eq_refl Es Eb alpha s Hm' Hdj S1 S2). rewrite Ek in R.
    eapply runs_weaken; [exact R|]. intros s' _ [H1 H2]. split; [|assumption]. intros idx Hi.
    pose proof (inb_length _ _ Hi) as Li.
    assert (Hi' : inb (firstn k (t_shape src) ++ skipn k (t_shape src)) (firstn k idx ++ skipn k idx)) by (rewrite !firstn_skipn; assumption).
    apply inb_app_inv in Hi' as [I1 I2]; [|rewrite !firstn_length; lia].
    unfold rot. fold k. rewrite H1 by assumption. rewrite firstn_skipn. reflexivity.
  - intros Hm. unfold transpose_async. eapply checks_false; [apply transpose_checks; assumption|assumption].
Qed.

(** Transposing with alpha and back (complementary number of dimensions) with beta multiplies
    every element by alpha then beta and restores its place. *)
Theorem C26_involution (alpha beta : T) src mid dst ndim s : wf_tensor src -> wf_tensor mid -> wf_tensor dst ->
  transpose_match src mid ndim -> t_shape dst = t_shape src -> t_base dst = t_base src ->
  disj src mid -> disj mid dst -> disj src dst -> stored KF s src -> stored KF s mid -> stored KF s dst ->
  runs (then_ (transpose_async alpha src mid ndim) (transpose_async beta mid dst (zlen (t_shape src) - ndim))) s (fun s' =>
    (forall idx, inb (t_shape src) idx -> elem s' dst idx = o_mul beta (o_mul alpha (elem s src idx))) /\
    frame [mid; dst] s s').
Proof.
  intros Hs Hmi Hd Hm Es Eb D1 D2 D3 S1 S2 S3. pose proof Hm as (Hn & Em1 & Em2).
  pose proof (wf_wft _ Hs) as Hs'. pose proof (wf_wft _ Hmi) as Hmi'. pose proof (wf_wft _ Hd) as Hd'. pose proof (wf_len _ Hs') as Ls.
  eapply runs_then; [apply C26_transpose; assumption|]. intros s1 Ht [H1 F1].
  assert (Lm : zlen (t_shape mid) = zlen (t_shape src)) by (rewrite Em1; apply zlen_rot; lia).
  assert (Hm2 : transpose_match mid dst (zlen (t_shape src) - ndim)).
  { split; [lia|]. split.
    - rewrite Es, Em1. symmetry. apply rot_rot. lia.
    - rewrite Eb, Em2. rewrite <- Ls. symmetry. apply rot_rot. lia. }
  eapply runs_weaken; [apply C26_transpose; try assumption; eapply tinv_stored; eassumption|].
  intros s2 _ [H2 F2]. split.
  - intros idx Hi. pose proof (inb_length _ _ Hi) as Li.
    assert (Lz : zlen (t_shape src) = zlen idx) by (unfold zlen; congruence).
    assert (Hr : inb (t_shape mid) (rot ndim idx)).
    { rewrite Em1. unfold rot. set (k := Z.to_nat ndim).
      assert (Hi' : inb (firstn k (t_shape src) ++ skipn k (t_shape src)) (firstn k idx ++ skipn k idx)) by (rewrite !firstn_skipn; assumption).
      apply inb_app_inv in Hi' as [I1 I2]; [|rewrite !firstn_length; lia]. apply inb_app; assumption. }
    rewrite <- H1 by assumption. rewrite <- H2 by assumption. f_equal. rewrite Lz. symmetry. apply rot_rot. lia.
  - change [mid; dst] with ([mid] ++ [dst]). eapply frame_trans; eassumption.
Qed.
End Transpose.

Theorem C26_involution_R src mid dst ndim (s : store R) : wf_tensor src -> wf_tensor mid -> wf_tensor dst ->
  transpose_match src mid ndim -> t_shape dst = t_shape src -> t_base dst = t_base src ->
  disj src mid -> disj mid dst -> disj src dst -> stored KF s src -> stored KF s mid -> stored KF s dst ->
  runs (then_ (transpose_async 1%R src mid ndim) (transpose_async 1%R mid dst (zlen (t_shape src) - ndim))) s (fun s' =>
    forall idx, inb (t_shape src) idx -> elem s' dst idx = elem s src idx).
Proof.
  intros. eapply runs_weaken; [eapply C26_involution; eassumption|]. intros s' _ [H' _] idx Hi. rewrite H' by assumption. cbn. lra.
Qed.

(** ** C27: the argument checks of gemm are complete *)
Section Gemm.
Context {T : Type} {O : Ops T}.

Lemma gemm_lengths tA (A C : tensor) sm sk sn sb bm bk bn bb : wft A -> wft C ->
  t_shape A = op_dims tA sm sk sb -> t_base A = op_dims tA bm bk bb ->
  t_shape C = sm ++ sn ++ sb -> t_base C = bm ++ bn ++ bb -> zlen sk = zlen bk -> zlen sb = zlen bb ->
  List.length sm = List.length bm /\ List.length sk = List.length bk /\ List.length sn = List.length bn /\ List.length sb = List.length bb.
Proof.
  intros HA HC E1 E2 E3 E4 L1 L2. pose proof (wf_len _ HA) as LA. pose proof (wf_len _ HC) as LC.
  rewrite E1, E2 in LA. rewrite E3, E4 in LC. unfold op_dims, zlen in *. destruct tA; rewrite !app_length in *; lia.
Qed.

(** gemm_async accepts its arguments exactly when shapes and tile shapes factor as op(A) = (m,k,b),
    op(B) = (k,n,b), C = (m,n,b); then every schedule of the submitted tile products is free of
    errors (no out-of-bounds access, no failed check) and writes only C. *)
Theorem C27_gemm_checks (alpha beta : T) tA tB A B C ndim batch s : wf_tensor A -> wf_tensor B -> wf_tensor C ->
  (gemm_match tA tB A B C ndim batch -> disj A C -> disj B C -> stored KF s A -> stored KF s B -> stored KF s C ->
   runs (gemm_async alpha tA A tB B beta C ndim batch false) s (fun s' => frame [C] s s')) /\
  (~ gemm_match tA tB A B C ndim batch -> throws (gemm_async alpha tA A tB B beta C ndim batch false)).
Proof.
  intros HA HB HC. apply wf_wft in HA, HB, HC. split.
  - intros Hm D1 D2 S1 S2 S3. pose proof Hm as [(sm & sk & sn & sb & L1 & L2 & E1 & E2 & E3) (bm & bk & bn & bb & L1' & L2' & F1 & F2 & F3)].
    destruct (gemm_lengths tA A C sm sk sn sb bm bk bn bb HA HC E1 F1 E3 F3) as (G1 & G2 & G3 & G4); [congruence..|].
    subst ndim batch. eapply runs_weaken; [eapply (gemm_runs tA tB A B C sm sk sn sb bm bk bn bb); eassumption|].
    intros s' _ [_ H]. exact H.
  - intros Hm. unfold gemm_async. eapply checks_false; [apply gemm_checks; assumption|assumption].
Qed.

(** ** C28, with the order of summation of the code: tile by tile along the contracted dimensions *)
Theorem C28_gemm_generic (alpha beta : T) tA tB A B C ndim batch s sm sk sn sb bm bk bn bb : wf_tensor A -> wf_tensor B -> wf_tensor C ->
  t_shape A = op_dims tA sm sk sb -> t_base A = op_dims tA bm bk bb ->
  t_shape B = op_dims tB sk sn sb -> t_base B = op_dims tB bk bn bb ->
  t_shape C = sm ++ sn ++ sb -> t_base C = bm ++ bn ++ bb ->
  zlen sk = ndim -> zlen bk = ndim -> zlen sb = batch -> zlen bb = batch ->
  disj A C -> disj B C -> stored KF s A -> stored KF s B -> stored KF s C ->
  runs (gemm_async alpha tA A tB B beta C ndim batch false) s (fun s' =>
    (forall mi ni bi, inb sm mi -> inb sn ni -> inb sb bi ->
       elem s' C (mi ++ ni ++ bi) =
       fold_left (fun v l => gm (bj beta l) (o_mul alpha (tile_dot tA tB A B sk bk s mi ni bi l)) v)
         (zrange (rn sk bk)) (elem s C (mi ++ ni ++ bi))) /\
    frame [C] s s').
Proof.
  intros HA HB HC E1 F1 E2 F2 E3 F3 L1 L1' L2 L2' D1 D2 S1 S2 S3. apply wf_wft in HA, HB, HC.
  assert (Hm : gemm_match tA tB A B C ndim batch) by (split; [exists sm, sk, sn, sb|exists bm, bk, bn, bb]; auto).
  destruct (gemm_lengths tA A C sm sk sn sb bm bk bn bb HA HC E1 F1 E3 F3) as (G1 & G2 & G3 & G4); [congruence..|].
  subst ndim batch. eapply (gemm_runs tA tB A B C sm sk sn sb bm bk bn bb); eassumption.
Qed.

(** With beta = 0 the old contents of C (uninitialised memory, NaNs) do not matter. *)
Theorem C28_gemm_beta0 (alpha beta : T) tA tB A B C ndim batch : wf_tensor A -> wf_tensor B -> wf_tensor C ->
  o_eqb beta o_zero = true -> gemm_match tA tB A B C ndim batch -> disj A C -> disj B C ->
  forall s1 s2 ts s1' s2', stored KF s1 A -> stored KF s1 B -> stored KF s1 C -> stored KF s2 A -> stored KF s2 B -> stored KF s2 C ->
  (forall idx, inb (t_shape A) idx -> elem s1 A idx = elem s2 A idx) ->
  (forall idx, inb (t_shape B) idx -> elem s1 B idx = elem s2 B idx) ->
  gemm_async alpha tA A tB B beta C ndim batch false = Ok ts ->
  steps (ts, s1) ([], s1') -> steps (ts, s2) ([], s2') ->
  forall idx, inb (t_shape C) idx -> elem s1' C idx = elem s2' C idx.
Proof.
  intros HA HB HC Hb Hm D1 D2 s1 s2 ts s1' s2' A1 B1 C1 A2 B2 C2 EA EB Ets St1 St2 idx Hi. apply wf_wft in HA, HB, HC.
  pose proof Hm as [(sm & sk & sn & sb & L1 & L2 & E1 & E2 & E3) (bm & bk & bn & bb & L1' & L2' & F1 & F2 & F3)].
  destruct (gemm_lengths tA A C sm sk sn sb bm bk bn bb HA HC E1 F1 E3 F3) as (G1 & G2 & G3 & G4); [congruence..|].
  subst ndim batch.
  destruct (gemm_runs tA tB A B C sm sk sn sb bm bk bn bb HA HB HC G1 G2 G3 G4 E1 F1 E2 F2 E3 F3 alpha beta s1 Hm D1 D2 A1 B1 C1) as (ts1 & T1 & _ & _ & R1).
  destruct (gemm_runs tA tB A B C sm sk sn sb bm bk bn bb HA HB HC G1 G2 G3 G4 E1 F1 E2 F2 E3 F3 alpha beta s2 Hm D1 D2 A2 B2 C2) as (ts2 & T2 & _ & _ & R2).
  assert (ts1 = ts) by congruence. assert (ts2 = ts) by congruence. subst ts1 ts2.
  destruct (R1 _ _ St1) as [_ X1]. destruct (R2 _ _ St2) as [_ X2].
  destruct (X1 eq_refl) as (_ & Y1 & _). destruct (X2 eq_refl) as (_ & Y2 & _).
  rewrite E3 in Hi.
  apply inb_app_inv_l in Hi as (mi & r & -> & I1 & I2). apply inb_app_inv_l in I2 as (ni & bi & -> & I2 & I3).
  rewrite Y1, Y2 by assumption.
  destruct (gm_geo tA A C sm sk sn sb bm bk bn bb HA HC G1 G2 G3 G4 E1 F1 E3 F3) as (Q1 & Q2 & Q3 & Q4).
  assert (Ed : forall l, 0 <= l < rn sk bk -> tile_dot tA tB A B sk bk s1 mi ni bi l = tile_dot tA tB A B sk bk s2 mi ni bi l).
  { intros l Hl. unfold tile_dot. apply fold_left_ext. intros t o Ho. apply zrange_In in Ho.
    destruct (ridx_spec Q2 l o Hl Ho) as (I & _). rewrite EA, EB; [reflexivity| |].
    - rewrite E2. apply op_inb; assumption.
    - rewrite E1. apply op_inb; assumption. }
  pose proof (rn_pos Q2) as Hk. replace (rn sk bk) with (1 + (rn sk bk - 1)) by ring. rewrite zrange_add by lia.
  rewrite !fold_left_app. change (zrange 1) with [0]. cbn [fold_left].
  assert (E0 : forall v1 v2, gm (bj beta 0) (o_mul alpha (tile_dot tA tB A B sk bk s1 mi ni bi 0)) v1 =
     gm (bj beta 0) (o_mul alpha (tile_dot tA tB A B sk bk s2 mi ni bi 0)) v2).
  { intros v1 v2. rewrite Ed by lia. unfold gm, bj. cbn [Z.eqb]. rewrite Hb. reflexivity. }
  rewrite (E0 (elem s1 C (mi ++ ni ++ bi)) (elem s2 C (mi ++ ni ++ bi))).
  apply fold_left_ext. intros v l Hl. apply in_map_iff in Hl as (l' & <- & Hl'). apply zrange_In in Hl'.
  rewrite Ed by lia. reflexivity.
Qed.
End Gemm.

(** ** C28 over the reals: the dense contraction *)
Local Open Scope R_scope.

Lemma gm_R (beta x c : R) : gm beta x c = beta * c + x.
Proof. unfold gm. reqb; cbn; subst; lra. Qed.

Lemma dot_R (n : Z) (f : Z -> R) : (0 <= n)%Z -> fold_left (fun t o => o_add t (f o)) (zrange n) o_zero = Rsum n f.
Proof.
  intros Hn. pattern n. apply natlike_ind; [reflexivity| |assumption]. intros k Hk IH. unfold Z.succ.
  rewrite zrange_succ by assumption. rewrite fold_left_app, IH, Rsum_succ by assumption. cbn. reflexivity.
Qed.

(** The tiles (sh, ba) cover the box sh. *)
Lemma Rsum_geo sh ba f : geo sh ba ->
  Rsum (rn sh ba) (fun i => Rsum (rsz sh ba i) (fun o => f (ridx sh ba i o))) = Rsuml (all_idx sh) f.
Proof.
  intros G. assert (H : wft (std_tensor sh ba 0%Z)) by (apply wf_wft, std_wf; [|apply G..]; unfold zlen; f_equal; apply G).
  pose proof (Rsum_by_tiles (std_tensor sh ba 0%Z) f H) as E. unfold ntiles, tsz, tsh, eidx, tsh in E.
  rewrite !std_shape, !std_base in E. exact E.
Qed.

Theorem C28_gemm (alpha beta : R) tA tB A B C ndim batch s sm sk sn sb bm bk bn bb : wf_tensor A -> wf_tensor B -> wf_tensor C ->
  t_shape A = op_dims tA sm sk sb -> t_base A = op_dims tA bm bk bb ->
  t_shape B = op_dims tB sk sn sb -> t_base B = op_dims tB bk bn bb ->
  t_shape C = sm ++ sn ++ sb -> t_base C = bm ++ bn ++ bb ->
  zlen sk = ndim -> zlen bk = ndim -> zlen sb = batch -> zlen bb = batch ->
  disj A C -> disj B C -> stored KF s A -> stored KF s B -> stored KF s C ->
  runs (gemm_async alpha tA A tB B beta C ndim batch false) s (fun s' =>
    (forall mi ni bi, inb sm mi -> inb sn ni -> inb sb bi ->
       elem s' C (mi ++ ni ++ bi) = beta * elem s C (mi ++ ni ++ bi) +
         alpha * Rsuml (all_idx sk) (fun ki => elem s A (op_dims tA mi ki bi) * elem s B (op_dims tB ki ni bi))) /\
    frame [C] s s').
Proof.
  intros HA HB HC E1 F1 E2 F2 E3 F3 L1 L1' L2 L2' D1 D2 S1 S2 S3.
  eapply runs_weaken; [eapply (C28_gemm_generic alpha beta tA tB A B C ndim batch s sm sk sn sb bm bk bn bb); eassumption|].
  intros s' _ [H1 H2]. split; [|assumption]. intros mi ni bi Im In_ Ib. rewrite H1 by assumption.
  apply wf_wft in HA, HB, HC.
  destruct (gemm_lengths tA A C sm sk sn sb bm bk bn bb HA HC E1 F1 E3 F3) as (G1 & G2 & G3 & G4); [congruence..|].
  destruct (gm_geo tA A C sm sk sn sb bm bk bn bb HA HC G1 G2 G3 G4 E1 F1 E3 F3) as (Q1 & Q2 & Q3 & Q4).
  rewrite <- (Rsum_geo sk bk _ Q2). rewrite <- fold_beta by (apply rn_pos; assumption).
  apply fold_left_ext. intros v l Hl. apply zrange_In in Hl. rewrite gm_R. cbn [o_mul Rops]. f_equal. f_equal.
  unfold tile_dot. pose proof (rsz_pos Q2 l Hl) as Hp. rewrite dot_R by lia. reflexivity.
Qed.

(** ** C25: nrm2 *)
Lemma f_hypot_R (alpha x beta d : R) : f_hypot alpha x beta d = sqrt ((beta * d) * (beta * d) + alpha * alpha * (x * x)).
Proof.
  unfold f_hypot. reqb; cbn [o_abs o_hypot o_mul Rops o_zero]; subst.
  - replace (0 * d * (0 * d) + 0 * 0 * (x * x)) with 0 by ring. rewrite sqrt_0. reflexivity.
  - rewrite <- sqrt_sq_abs. f_equal. cbn. ring.
  - rewrite <- sqrt_sq_abs. f_equal. cbn. ring.
  - cbn. unfold Rhypot. f_equal. ring.
Qed.

Theorem C25_nrm2 (alpha beta : R) src dst tmp s : wf_tensor src -> wf_tensor dst -> wf_tensor tmp ->
  (nrm2_match src dst tmp -> disj src dst -> disj src tmp -> disj tmp dst ->
   stored KF s src -> stored KF s dst -> stored KF s tmp ->
   runs (nrm2_async alpha src beta dst tmp) s (fun s' =>
     elem s' dst [] = sqrt ((beta * elem s dst []) * (beta * elem s dst []) +
        alpha * alpha * Rsuml (all_idx (t_shape src)) (fun idx => elem s src idx * elem s src idx)) /\
     frame [dst; tmp] s s')) /\
  (~ nrm2_match src dst tmp -> throws (nrm2_async alpha src beta dst tmp)).
Proof.
  intros Hs Hd Ht. apply wf_wft in Hs, Hd, Ht. split.
  - intros Hm D1 D2 D3 S1 S2 S3. eapply runs_weaken; [apply nrm2_runs; assumption|].
    intros s' _ (H1 & _ & H3). split; [|assumption]. rewrite H1.
    rewrite <- (Rsum_by_tiles src (fun idx => elem s src idx * elem s src idx)) by assumption.
    assert (Hn : (0 < ntiles src)%Z) by (unfold ntiles; apply prodZ_pos, wf_pg; assumption).
    assert (Sq : forall i, (0 <= i < ntiles src)%Z -> 0 <= Rsum (tsz src i) (fun o => elem s src (eidx src i o) * elem s src (eidx src i o))).
    { intros i _. apply Rsuml_nonneg. intros o _. apply Rle_0_sqr. }
    rewrite <- (fold_norm alpha beta _ (ntiles src) (elem s dst []) Hn Sq).
    apply fold_left_ext. intros v i Hi. apply zrange_In in Hi. rewrite f_hypot_R. f_equal. f_equal. f_equal.
    cbn [o_sqrt Rops]. unfold ssq. pose proof (tsz_pos src i Hs Hi).
    rewrite (dot_R (tsz src i) (fun o => elem s src (eidx src i o) * elem s src (eidx src i o))) by lia. apply sqrt_sqrt, Sq, Hi.
  - intros Hm. unfold nrm2_async. eapply checks_false; [apply nrm2_checks; assumption|assumption].
Qed.

(** With beta = 0 the old value of dst is irrelevant (any scalar operations). *)
Theorem C25_nrm2_beta0 {T} {O : Ops T} (alpha beta : T) src dst tmp s : wf_tensor src -> wf_tensor dst -> wf_tensor tmp ->
  o_eqb beta o_zero = true -> nrm2_match src dst tmp -> disj src dst -> disj src tmp -> disj tmp dst ->
  stored KF s src -> stored KF s dst -> stored KF s tmp ->
  runs (nrm2_async alpha src beta dst tmp) s (fun s' =>
    forall old, elem s' dst [] = fold_left (fun v i => f_hypot alpha (o_sqrt (ssq s src i)) (bj beta i) v) (zrange (ntiles src)) old).
Proof.
  intros Hs Hd Ht Hb Hm D1 D2 D3 S1 S2 S3. apply wf_wft in Hs, Hd, Ht.
  eapply runs_weaken; [apply nrm2_runs; assumption|]. intros s' _ (H1 & _) old. rewrite H1.
  assert (Hn : (0 < ntiles src)%Z) by (unfold ntiles; apply prodZ_pos, wf_pg; assumption).
  replace (ntiles src) with (1 + (ntiles src - 1))%Z by ring. rewrite zrange_add by lia. rewrite !fold_left_app.
  change (zrange 1) with [0%Z]. cbn [fold_left]. f_equal. unfold f_hypot, bj. cbn [Z.eqb]. rewrite Hb. reflexivity.
Qed.

Lemma put_elem_ne (t t' : tensor) (c : list Z -> R) s idx : wft t' -> disj t' t -> inb (t_shape t') idx ->
  elem (put t c s) t' idx = elem s t' idx.
Proof. intros. apply put_elem_other; assumption. Qed.

(** ** The hypotheses are satisfiable.  C (5x4) = 2*A^T*B + 3*C with A 3x5 in tiles 2x2 and B 3x4
    in tiles 2x3: partial tiles in every dimension. *)
Definition exg_A := std_tensor [3; 5]%Z [2; 2]%Z 0%Z.
Definition exg_B := std_tensor [3; 4]%Z [2; 3]%Z 100%Z.
Definition exg_C := std_tensor [5; 4]%Z [2; 3]%Z 200%Z.
Definition exg_s : store R := put exg_A (fun i => IZR (zn i 0 + zn i 1)) (put exg_B (fun i => IZR (zn i 0 - zn i 1))
  (put exg_C (fun _ => 7) (fun _ => BF []))).
Example exg_hyps : wf_tensor exg_A /\ wf_tensor exg_B /\ wf_tensor exg_C /\ disj exg_A exg_C /\ disj exg_B exg_C /\
  stored KF exg_s exg_A /\ stored KF exg_s exg_B /\ stored KF exg_s exg_C.
Proof.
  assert (HA : wf_tensor exg_A) by std_wf_tac. assert (HB : wf_tensor exg_B) by std_wf_tac. assert (HC : wf_tensor exg_C) by std_wf_tac.
  assert (D1 : disj exg_A exg_C) by (apply std_disj; vm_compute; left; discriminate).
  assert (D2 : disj exg_B exg_C) by (apply std_disj; vm_compute; left; discriminate).
  assert (D3 : disj exg_A exg_B) by (apply std_disj; vm_compute; left; discriminate).
  pose proof (wf_wft _ HA). pose proof (wf_wft _ HB). pose proof (wf_wft _ HC).
  do 5 (split; [assumption|]). unfold exg_s. split; [apply put_stored; assumption|]. split.
  - apply put_stored_other; auto using disj_sym. apply put_stored; assumption.
  - apply put_stored_other; auto using disj_sym. apply put_stored_other; auto using disj_sym. apply put_stored; assumption.
Qed.
Example exg_gemm : runs (gemm_async 2 Trans exg_A NoTrans exg_B 3 exg_C 1%Z 0%Z false) exg_s (fun s' =>
  elem s' exg_C [4%Z; 3%Z] = 3 * 7 + 2 * (4 * -3 + 5 * -2 + 6 * -1)).
Proof.
  destruct exg_hyps as (HA & HB & HC & D1 & D2 & S1 & S2 & S3).
  eapply runs_weaken; [apply (C28_gemm 2 3 Trans NoTrans exg_A exg_B exg_C 1%Z 0%Z exg_s [5]%Z [3]%Z [4]%Z [] [2]%Z [2]%Z [3]%Z []); (assumption || reflexivity)|].
  intros s' _ [H1 _]. specialize (H1 [4]%Z [3]%Z []). cbn [app] in H1. rewrite H1 by (repeat constructor; lia).
  pose proof (wf_wft _ HA). pose proof (wf_wft _ HB). pose proof (wf_wft _ HC).
  assert (D3 : disj exg_A exg_B) by (apply std_disj; vm_compute; left; discriminate).
  assert (EC : elem exg_s exg_C [4; 3]%Z = 7).
  { unfold exg_s. rewrite put_elem_ne; [|auto using disj_sym..|repeat constructor; lia].
    rewrite put_elem_ne; [|auto using disj_sym..|repeat constructor; lia].
    rewrite put_elem; [reflexivity|assumption|repeat constructor; lia]. }
  assert (EA : forall k, (0 <= k < 3)%Z -> elem exg_s exg_A [k; 4]%Z = IZR (k + 4)).
  { intros k Hk. unfold exg_s. rewrite put_elem; [reflexivity|assumption|repeat constructor; lia]. }
  assert (EB : forall k, (0 <= k < 3)%Z -> elem exg_s exg_B [k; 3]%Z = IZR (k - 3)).
  { intros k Hk. unfold exg_s. rewrite put_elem_ne; [|auto using disj_sym..|repeat constructor; lia].
    rewrite put_elem; [reflexivity|assumption|repeat constructor; lia]. }
  rewrite EC. change (all_idx [3%Z]) with [[0]; [1]; [2]]%Z. unfold Rsuml, op_dims. cbn [fold_right app].
  rewrite !EA, !EB by lia. rewrite !plus_IZR, !minus_IZR. lra.
Qed.

(** transpose of a 3x5 tensor in tiles 2x2, and the norm of the same tensor *)
Definition exg_At := std_tensor [5; 3]%Z [2; 2]%Z 300%Z.
Example exg_transpose_match : transpose_match exg_A exg_At 1.
Proof. split; [vm_compute; split; reflexivity|]. split; reflexivity. Qed.
Definition exg_tmp := std_tensor [2; 3]%Z [1; 1]%Z 400%Z.
Definition exg_d := std_tensor [] [] 500%Z.
Example exg_nrm2_match : nrm2_match exg_A exg_d exg_tmp.
Proof. split; [reflexivity|]. split; [reflexivity|]. repeat constructor. Qed.
Definition exn_s : store R := put exg_A (fun i => IZR (zn i 0 + zn i 1)) (put exg_tmp (fun _ => 5) (put exg_d (fun _ => 1) (fun _ => BF []))).
Example exg_nrm2 : runs (nrm2_async 1 exg_A 2 exg_d exg_tmp) exn_s (fun s' => elem s' exg_d [] = sqrt (4 + 175)).
Proof.
  assert (HA : wf_tensor exg_A) by std_wf_tac. assert (HB : wf_tensor exg_tmp) by std_wf_tac. assert (HC : wf_tensor exg_d) by std_wf_tac.
  assert (D1 : disj exg_A exg_d) by (apply std_disj; vm_compute; left; discriminate).
  assert (D2 : disj exg_A exg_tmp) by (apply std_disj; vm_compute; left; discriminate).
  assert (D3 : disj exg_tmp exg_d) by (apply std_disj; vm_compute; left; discriminate).
  pose proof (wf_wft _ HA). pose proof (wf_wft _ HB). pose proof (wf_wft _ HC).
  eapply runs_weaken; [apply (proj1 (C25_nrm2 1 2 exg_A exg_d exg_tmp exn_s HA HC HB) exg_nrm2_match D1 D2 D3)|].
  - unfold exn_s. apply put_stored; assumption.
  - unfold exn_s. apply put_stored_other; auto using disj_sym. apply put_stored_other; auto using disj_sym. apply put_stored; assumption.
  - unfold exn_s. apply put_stored_other; auto using disj_sym. apply put_stored; assumption.
  - intros s' _ [-> _].
    assert (E0 : elem exn_s exg_d [] = 1).
    { unfold exn_s. rewrite put_elem_ne; [|auto using disj_sym..|repeat constructor; lia].
      rewrite put_elem_ne; [|auto using disj_sym..|repeat constructor; lia].
      rewrite put_elem; [reflexivity|assumption|repeat constructor; lia]. }
    rewrite E0. f_equal. rewrite (Rsuml_ext _ _ (fun i => IZR (zn i 0 + zn i 1) * IZR (zn i 0 + zn i 1))).
    + change (all_idx (t_shape exg_A)) with [[0;0]; [1;0]; [2;0]; [0;1]; [1;1]; [2;1]; [0;2]; [1;2]; [2;2]; [0;3]; [1;3]; [2;3]; [0;4]; [1;4]; [2;4]]%Z.
      unfold Rsuml. cbn [fold_right].
      repeat match goal with |- context [zn ?l ?i] => let v := eval vm_compute in (zn l i) in change (zn l i) with v end.
      rewrite !plus_IZR. lra.
    + intros idx Hi. unfold exn_s. apply all_idx_In in Hi; [|repeat constructor; lia]. rewrite put_elem; [reflexivity|assumption|assumption].
Qed.
