(** * C17 (sum_fiber), C19 (sumprod_fiber), C20 (fiber broadcasts) over the reals

    [fib axis b idx] keeps coordinate [axis] and the last [b] coordinates of idx.
    [fiber_match big small axis b]: [axis] is not among the last b dimensions of big, and the
    shape and tiling of small are those of big restricted in this way. *)
From Coq Require Import Reals Lra Lia Permutation.
From Verif Require Import Base Spec Geometry Traits TraitsProofs Runtime Ops TensorSem ElemGeneric OneOut
  KernelsElem ElemOps Axis AccRuns Loops SliceOps SliceGeo SliceProofs SliceReduce RealOps RSum Concrete PropElem PropElemR
  PropSlice FiberOps FiberGeo FiberProofs FiberReduce.
Local Open Scope R_scope.

(** Sum of f over the elements of an array of this shape lying over element d of the fiber. *)
Definition fiber_sum (shape : list Z) (axis b : Z) (d : list Z) (f : list Z -> R) : R :=
  Rsuml (filter (fun idx => list_eqb Z.eqb (fib axis b idx) d) (all_idx shape)) f.

Lemma Rsuml_filter {A} (P : A -> bool) l f : Rsuml (filter P l) f = Rsuml l (fun x => if P x then f x else 0).
Proof.
  induction l as [|x l IH]; [reflexivity|]. rewrite Rsuml_cons. cbn [filter]. destruct (P x); rewrite ?Rsuml_cons, IH; lra.
Qed.
Lemma fold_Rsuml {A} (l : list A) f a : fold_left (fun s x => s + f x) l a = a + Rsuml l f.
Proof. revert a. induction l as [|x l IH]; intros a; [unfold Rsuml; simpl; lra|]. cbn [fold_left]. rewrite IH, Rsuml_cons. lra. Qed.

Lemma ksum2_R n m f : ksum2 n m f = (Rsum n (fun j => Rsum m (fun k => f j k)), 0).
Proof.
  assert (G1 : forall j (l : list Z) a, fold_left (fun s i => kahan (f j i) s) l (a, 0) = (a + Rsuml l (f j), 0)).
  { intros j l. induction l as [|x l IH]; intros a; [unfold Rsuml; cbn; f_equal; lra|]. cbn [fold_left].
    change (kahan (f j x) (a, 0)) with (a + (f j x - 0), (a + (f j x - 0) - a) - (f j x - 0)).
    replace ((a + (f j x - 0) - a) - (f j x - 0)) with 0 by lra. rewrite IH, Rsuml_cons. f_equal. lra. }
  assert (G2 : forall (l : list Z) a, fold_left (fun s j => fold_left (fun s i => kahan (f j i) s) (zrange m) s) l (a, 0)
     = (a + Rsuml l (fun j => Rsum m (f j)), 0)).
  { induction l as [|x l IH]; intros a; [unfold Rsuml; cbn; f_equal; lra|]. cbn [fold_left]. rewrite G1, IH, Rsuml_cons.
    f_equal. change (Rsuml (zrange m) (f x)) with (Rsum m (f x)). ring. }
  unfold ksum2. change (@o_zero R _) with 0. rewrite G2. f_equal. rewrite Rplus_0_l. reflexivity.
Qed.
Lemma psum2_R n m f : psum2 n m f = Rsum n (fun j => Rsum m (fun k => f j k)).
Proof.
  unfold psum2. rewrite (fold_left_ext _ (fun s j => s + Rsum m (f j))).
  - rewrite fold_Rsuml. change (@o_zero R _) with 0. rewrite Rplus_0_l. reflexivity.
  - intros a j _. cbn. apply fold_Rsuml.
Qed.
Lemma fres_R alpha beta S v : fres alpha beta (S, 0) v = beta * v + alpha * S.
Proof. unfold fres. reqb; cbn; subst; lra. Qed.
Lemma spres_R alpha beta S v : spres alpha beta S v = beta * v + alpha * S.
Proof. unfold spres. reqb; cbn; subst; lra. Qed.

Section G.
Variables (src dst : tensor) (axis b : Z).
Hypothesis (HA : wft src) (HB : wft dst) (Hm : fiber_match src dst axis b).

Lemma fold_first (alpha beta : R) (S : Z -> R) t v : (0 <= t < ntiles dst)%Z ->
  fold_left (fun v i => bi src axis b beta i * v + alpha * S i)
    (filter (fun i => (fg_out src dst axis b i =? t)%Z) (zrange (ntiles src))) v =
  beta * v + alpha * Rsuml (filter (fun i => (fg_out src dst axis b i =? t)%Z) (zrange (ntiles src))) S.
Proof.
  intros Ht. destruct (fg_filter src dst axis b HA Hm t Ht) as (x & l & -> & Hx & Hl & _).
  cbn [fold_left]. unfold bi at 2. rewrite Hx. rewrite Rsuml_cons.
  rewrite (fold_left_ext _ (fun v i => v + alpha * S i)).
  - rewrite fold_Rsuml. rewrite Rsuml_scal. lra.
  - intros a i Hi. unfold bi. rewrite Hl by assumption. cbn. lra.
Qed.

(** One tile's contributions, as kernels enumerate them. *)
Lemma tile_fiber_sum d i (g : list Z -> R) : inb (t_shape dst) d -> (0 <= i < ntiles src)%Z -> fg_out src dst axis b i = etile dst d ->
  let q := dim4 axis b (tsh src i) in
  Rsum (zn q 2) (fun j => Rsum (zn q 0) (fun k => g (eidx src i (fpos src axis b i (eoff dst d) j k)))) =
  Rsum (tsz src i) (fun o => if list_eqb Z.eqb (fib axis b (eidx src i o)) d then g (eidx src i o) else 0).
Proof.
  intros Hd Hi Ei q. unfold Rsum at 3. rewrite <- (Rsuml_filter (fun o => list_eqb Z.eqb (fib axis b (eidx src i o)) d) _ (fun o => g (eidx src i o))).
  set (ps := list_prod (zrange (zn q 2)) (zrange (zn q 0))).
  assert (E : Rsum (zn q 2) (fun j => Rsum (zn q 0) (fun k => g (eidx src i (fpos src axis b i (eoff dst d) j k)))) =
    Rsuml (map (fun p => fpos src axis b i (eoff dst d) (fst p) (snd p)) ps) (fun o => g (eidx src i o))).
  { rewrite Rsuml_map. unfold ps.
    assert (G : forall (l k : list Z) f, Rsuml (list_prod l k) f = Rsuml l (fun x => Rsuml k (fun y => f (x, y)) : R)).
    { intros l k f. induction l as [|x l IH]; [reflexivity|]. cbn [list_prod]. rewrite Rsuml_app, IH, Rsuml_map, Rsuml_cons. reflexivity. }
    rewrite G. reflexivity. }
  rewrite E. clear E. apply Rsuml_perm.
  destruct (fg_sizes src dst axis b HA Hm i Hi) as (Q0 & Q1 & Q2 & Q3 & Z1 & Z2 & _). fold q in Q0, Q1, Q2, Q3, Z1, Z2.
  pose proof (eoff_bound dst d HB Hd) as Ho. rewrite <- Ei in Ho. rewrite Z2 in Ho.
  destruct (cz2_inv _ _ _ Q1 Q3 Ho) as (C0 & C1 & C2).
  set (l := cz [zn q 1; zn q 3] 0 (eoff dst d)) in *. set (p := cz [zn q 1; zn q 3] 1 (eoff dst d)) in *.
  assert (Ep : forall j k, fpos src axis b i (eoff dst d) j k = (k + zn q 0 * (l + zn q 1 * (j + zn q 2 * p)))%Z) by reflexivity.
  apply NoDup_Permutation.
  - assert (N : NoDup ps) by (apply NoDup_prod; apply NoDup_zrange).
    assert (G : forall ps', NoDup ps' -> incl ps' ps -> NoDup (map (fun p => fpos src axis b i (eoff dst d) (fst p) (snd p)) ps')).
    { induction ps' as [|x ps' IH]; intros Hn Hinc; cbn [map]; constructor.
      - intros Hin. apply in_map_iff in Hin as ([j' k'] & E & Hx'). destruct x as [j k]. cbn [fst snd] in E.
        apply NoDup_cons_iff in Hn as [Hn1 Hn2].
        assert (I1 : In (j, k) ps) by (apply Hinc; left; reflexivity). assert (I2 : In (j', k') ps) by (apply Hinc; right; assumption).
        apply in_prod_iff in I1 as [I1 I1'], I2 as [I2 I2']. rewrite zrange_In in *.
        rewrite !Ep in E. destruct (cz4 _ _ _ _ _ _ _ _ I1' C0 I1 C1) as (X0 & _ & X2 & _).
        destruct (cz4 _ _ _ _ _ _ _ _ I2' C0 I2 C1) as (Y0 & _ & Y2 & _). rewrite E in Y0, Y2.
        assert (Ejj : j = j') by congruence. assert (Ekk : k = k') by congruence. rewrite <- Ejj, <- Ekk in Hx'. contradiction.
      - inversion Hn; subst. apply IH; [assumption|]. intros y Hy. apply Hinc. right; assumption. }
    apply G; [assumption|apply incl_refl].
  - apply NoDup_filter. apply NoDup_zrange.
  - intros o. rewrite in_map_iff, filter_In, zrange_In, list_eqb_Z. split.
    + intros ([j k] & <- & Hin). apply in_prod_iff in Hin as [Hj Hk]. rewrite zrange_In in *. cbn [fst snd].
      destruct (fg_up src dst axis b HA HB Hm d i k j Hd Hi Ei Hk Hj) as (U1 & U2). split; assumption.
    + intros [Hob Efib]. destruct (eidx_spec src i o HA Hi Hob) as (I1 & I2 & I3).
      destruct (fg_geo src dst axis b HA HB Hm _ I1) as (J1 & J2 & o0 & l' & o2 & o3 & B0 & B1 & B2 & B3 & J3 & J4).
      rewrite I2 in *. fold q in B0, B1, B2, B3, J3, J4. rewrite I3 in J3. rewrite Efib in J4.
      exists (o2, o0). cbn [fst snd]. split; [|apply in_prod_iff; rewrite !zrange_In; auto].
      rewrite Ep. destruct (cz2 _ _ _ _ B1 B3) as (F0 & F1 & _). rewrite <- J4 in F0, F1. fold l in F0. fold p in F1.
      rewrite F0, F1. symmetry. exact J3.
Qed.

Lemma fiber_sum_tiles d (g : list Z -> R) : inb (t_shape dst) d ->
  Rsuml (filter (fun i => (fg_out src dst axis b i =? etile dst d)%Z) (zrange (ntiles src)))
    (fun i => Rsum (zn (dim4 axis b (tsh src i)) 2) (fun j => Rsum (zn (dim4 axis b (tsh src i)) 0) (fun k =>
       g (eidx src i (fpos src axis b i (eoff dst d) j k))))) = fiber_sum (t_shape src) axis b d g.
Proof.
  intros Hd. unfold fiber_sum. rewrite !Rsuml_filter. rewrite <- Rsum_by_tiles by assumption.
  apply Rsum_ext. intros i Hi. destruct (Z.eqb_spec (fg_out src dst axis b i) (etile dst d)) as [E|E].
  - apply tile_fiber_sum; assumption.
  - symmetry. apply Rsuml_0. intros o Ho. apply zrange_In in Ho.
    destruct (list_eqb Z.eqb (fib axis b (eidx src i o)) d) eqn:Ef; [|reflexivity]. exfalso. apply list_eqb_Z in Ef.
    destruct (eidx_spec src i o HA Hi Ho) as (I1 & I2 & I3).
    destruct (fg_geo src dst axis b HA HB Hm _ I1) as (_ & J2 & _). rewrite I2, Ef in J2. congruence.
Qed.
End G.

(** ** C17 *)
Theorem C17_sum_fiber (alpha beta : R) src dst axis b s : wf_tensor src -> wf_tensor dst -> (0 <= b)%Z ->
  (fiber_match src dst axis b -> disj src dst -> stored KF s src -> stored KF s dst ->
   runs (sum_fiber_async alpha src beta dst axis b false) s (fun s' =>
     (forall d, inb (t_shape dst) d ->
        elem s' dst d = beta * elem s dst d + alpha * fiber_sum (t_shape src) axis b d (elem s src)) /\
     frame [dst] s s')) /\
  (~ fiber_match src dst axis b -> throws (sum_fiber_async alpha src beta dst axis b false)).
Proof.
  intros Hs Hd Hb. apply wf_wft in Hs, Hd. split.
  - intros Hm Hdj S1 S2. eapply runs_weaken; [apply sum_fiber_runs; assumption|].
    intros s' _ [H1 H2]. split; [|assumption]. intros d Hi. rewrite H1 by assumption.
    rewrite <- (fiber_sum_tiles src dst axis b) by assumption.
    rewrite <- (fold_first src dst axis b) by (try assumption; apply etile_bound; assumption).
    apply fold_left_ext. intros v j Hj. rewrite ksum2_R. apply fres_R.
  - intros Hm. unfold sum_fiber_async. eapply checks_false; [apply sum_fiber_checks; assumption|assumption].
Qed.

(** ** C19: sumprod_fiber.  As for sumprod_slice, the tiling of src2 is not checked. *)
Theorem C19_sumprod_fiber_partial (alpha beta : R) src1 src2 dst axis s : wf_tensor src1 -> wf_tensor src2 -> wf_tensor dst ->
  t_base src2 = t_base src1 ->
  (fiber_match src1 dst axis 0 -> t_shape src2 = t_shape src1 -> disj src1 dst -> disj src2 dst ->
   stored KF s src1 -> stored KF s src2 -> stored KF s dst ->
   runs (sumprod_fiber_async alpha src1 src2 beta dst axis false) s (fun s' =>
     (forall d, inb (t_shape dst) d ->
        elem s' dst d = beta * elem s dst d +
          alpha * fiber_sum (t_shape src1) axis 0 d (fun idx => elem s src1 idx * elem s src2 idx)) /\
     frame [dst] s s')) /\
  (~ (fiber_match src1 dst axis 0 /\ t_shape src2 = t_shape src1) -> throws (sumprod_fiber_async alpha src1 src2 beta dst axis false)).
Proof.
  intros Hs Hs2 Hd Eb. apply wf_wft in Hs, Hs2, Hd. split.
  - intros Hm Es Hdj Hdj2 S1 S3 S2. eapply runs_weaken; [apply sumprod_fiber_runs; assumption|].
    intros s' _ [H1 H2]. split; [|assumption]. intros d Hi. rewrite H1 by assumption.
    rewrite <- (fiber_sum_tiles src1 dst axis 0 Hs Hd Hm d (fun idx => elem s src1 idx * elem s src2 idx)) by assumption.
    rewrite <- (fold_first src1 dst axis 0) by (try assumption; apply etile_bound; assumption).
    apply fold_left_ext. intros v j Hj. rewrite psum2_R. apply spres_R.
  - intros Hm. unfold sumprod_fiber_async. eapply checks_false; [apply sumprod_fiber_checks; assumption|]. intuition.
Qed.
Theorem C19_sumprod_fiber_refuted : exists src1 src2 dst axis,
  wf_tensor src1 /\ wf_tensor src2 /\ wf_tensor dst /\ fiber_match src1 dst axis 0 /\ t_shape src2 = t_shape src1 /\
  forall alpha beta : R, sumprod_fiber_async alpha src1 src2 beta dst axis false = UB.
Proof.
  exists (std_tensor [4; 2] [2; 2] 0)%Z, (std_tensor [4; 2] [4; 2] 10)%Z, (std_tensor [2] [2] 20)%Z, 1%Z.
  split; [std_wf_tac|]. split; [std_wf_tac|]. split; [std_wf_tac|].
  split; [split; [lia|]; split; [vm_compute; split; [discriminate|reflexivity]|split; reflexivity]|]. split; [reflexivity|]. intros. reflexivity.
Qed.

(** ** C20: broadcasts of a fiber *)
(** The full statement for add_fiber. *)
Definition add_fiber_spec (alpha beta : R) : Prop := forall src dst axis b s, wf_tensor src -> wf_tensor dst -> (0 <= b)%Z ->
  (fiber_match dst src axis b -> disj src dst -> stored KF s src -> stored KF s dst ->
   runs (add_fiber_async alpha src beta dst axis b) s (fun s' =>
     (forall idx, inb (t_shape dst) idx ->
        elem s' dst idx = alpha * elem s src (fib axis b idx) + beta * elem s dst idx) /\
     frame [dst] s s')) /\
  (~ fiber_match dst src axis b -> throws (add_fiber_async alpha src beta dst axis b)).

Theorem C20_add_fiber_partial (alpha beta : R) : alpha <> 0 \/ beta = 1 -> add_fiber_spec alpha beta.
Proof.
  intros Hab src dst axis b s Hs Hd Hb. apply wf_wft in Hs, Hd. split.
  - intros Hm Hdj S1 S2. destruct (Req_dec alpha 0) as [->|Ha].
    + destruct Hab as [| ->]; [tauto|]. unfold add_fiber_async.
      rewrite (checks_true _ _ (fiber_check_checks dst src axis b Hd Hs (proj1 Hm))) by assumption. bnd.
      replace (o_eqb 0 o_zero) with true by (symmetry; apply Reqb_true; reflexivity).
      apply nop_runs. split; [intros; lra|]. intros h _. reflexivity.
    + eapply runs_weaken; [apply add_fiber_runs; try assumption; apply Reqb_false; assumption|].
      intros s' _ [H1 H2]. split; [|assumption]. intros idx Hi. rewrite H1 by assumption. apply bc_R.
  - intros Hm. unfold add_fiber_async. eapply checks_false; [apply fiber_check_checks; assumption|assumption].
Qed.

(** With alpha = 0 the call returns before scaling dst by beta. *)
Theorem C20_add_fiber_refuted : ~ add_fiber_spec 0 2.
Proof.
  intros H. pose (A := std_tensor [1%Z] [1%Z] 0%Z). pose (B := std_tensor [1%Z] [1%Z] 10%Z).
  pose (s := put A (fun _ => 5) (put B (fun _ => 3) (fun _ => BF []))).
  assert (HA : wf_tensor A) by std_wf_tac. assert (HB : wf_tensor B) by std_wf_tac.
  pose proof (wf_wft _ HA) as HA'. pose proof (wf_wft _ HB) as HB'.
  assert (D : disj A B) by (apply std_disj; vm_compute; left; discriminate).
  assert (D' : disj B A) by (apply std_disj; vm_compute; right; discriminate).
  assert (Hm : fiber_match B A 0 0) by (split; [lia|]; split; [vm_compute; split; [discriminate|reflexivity]|split; reflexivity]).
  destruct (H A B 0%Z 0%Z s HA HB ltac:(lia)) as [H1 _]. clear H.
  assert (S1 : stored KF s A) by (apply put_stored; assumption).
  assert (S2 : stored KF s B) by (apply put_stored_other; [assumption|assumption|]; apply put_stored; assumption).
  destruct (H1 Hm D S1 S2) as (ts & E & _ & _ & R). unfold add_fiber_async in E.
  rewrite (checks_true _ _ (fiber_check_checks B A 0 0 HB' HA' (proj1 Hm)) Hm) in E. rewrite bind_Ok in E.
  replace (o_eqb 0 o_zero) with true in E by (symmetry; apply Reqb_true; reflexivity). inversion E; subst ts.
  destruct (R [] s (steps_refl _)) as [_ X]. destruct (X eq_refl) as [_ [Y _]].
  specialize (Y [0%Z] ltac:(repeat constructor; lia)).
  assert (E1 : elem s B [0%Z] = 3).
  { unfold s, put at 1. rewrite put_elem_other; [|assumption|assumption|repeat constructor; lia].
    rewrite put_elem; [reflexivity|assumption|repeat constructor; lia]. }
  rewrite E1 in Y. lra.
Qed.

Theorem C20_prod_fiber (alpha : R) src dst axis s : wf_tensor src -> wf_tensor dst ->
  (fiber_match dst src axis 0 -> disj src dst -> stored KF s src -> stored KF s dst ->
   runs (prod_fiber_async src alpha dst axis) s (fun s' =>
     (forall idx, inb (t_shape dst) idx ->
        elem s' dst idx = alpha * elem s src (fib axis 0 idx) * elem s dst idx) /\
     frame [dst] s s')) /\
  (~ fiber_match dst src axis 0 -> throws (prod_fiber_async src alpha dst axis)).
Proof.
  intros Hs Hd. apply wf_wft in Hs, Hd. split.
  - intros Hm Hdj S1 S2. eapply runs_weaken; [apply prod_fiber_runs; assumption|].
    intros s' _ [H1 H2]. split; [|assumption]. intros idx Hi. rewrite H1 by assumption. cbn. lra.
  - intros Hm. unfold prod_fiber_async. eapply checks_false; [apply prod_fiber_checks; assumption|assumption].
Qed.
Theorem C20_prod_fiber3 (alpha : R) src1 src2 dst axis s : wf_tensor src1 -> wf_tensor src2 -> wf_tensor dst ->
  (fiber_match dst src1 axis 0 -> same_tiling src2 dst -> disj src1 dst -> disj src2 dst ->
   stored KF s src1 -> stored KF s src2 -> stored KF s dst ->
   runs (prod_fiber3_async src1 alpha src2 dst axis) s (fun s' =>
     (forall idx, inb (t_shape dst) idx ->
        elem s' dst idx = alpha * elem s src1 (fib axis 0 idx) * elem s src2 idx) /\
     frame [dst] s s')) /\
  (~ (fiber_match dst src1 axis 0 /\ same_tiling src2 dst) -> throws (prod_fiber3_async src1 alpha src2 dst axis)).
Proof.
  intros Hs Hs2 Hd. apply wf_wft in Hs, Hs2, Hd. split.
  - intros Hm [E1 E2] Hdj Hdj2 S1 S3 S2. eapply runs_weaken; [apply prod_fiber3_runs; assumption|].
    intros s' _ [H1 H2]. split; [|assumption]. intros idx Hi. rewrite H1 by assumption. reflexivity.
  - intros Hm. unfold prod_fiber3_async. eapply checks_false; [apply prod_fiber3_checks; assumption|exact Hm].
Qed.

(** ** Example: a 4x3x5 tensor in tiles 2x2x2, axis 1 and one batch dimension *)
Definition exf_src := std_tensor [4; 3; 5]%Z [2; 2; 2]%Z 0%Z.
Definition exf_dst := std_tensor [3; 5]%Z [2; 2]%Z 100%Z.
Definition exf_s : store R := put exf_src (fun i => IZR (zn i 0)) (put exf_dst (fun i => IZR (zn i 0)) (fun _ => BF [])).
Example exf_hyps : wf_tensor exf_src /\ wf_tensor exf_dst /\ fiber_match exf_src exf_dst 1 1 /\ disj exf_src exf_dst /\
  stored KF exf_s exf_src /\ stored KF exf_s exf_dst.
Proof.
  assert (HA : wf_tensor exf_src) by std_wf_tac. assert (HB : wf_tensor exf_dst) by std_wf_tac.
  assert (D : disj exf_dst exf_src) by (apply std_disj; vm_compute; right; discriminate).
  split; [assumption|]. split; [assumption|].
  split; [split; [lia|]; split; [vm_compute; split; [discriminate|reflexivity]|split; reflexivity]|].
  split; [intros h H1 H2; apply (D h); assumption|]. split.
  - apply put_stored. apply wf_wft. assumption.
  - apply put_stored_other; [apply wf_wft; assumption|assumption|]. apply put_stored. apply wf_wft. assumption.
Qed.
(** The fiber element (2, 4) collects 0 + 1 + 2 + 3. *)
Example exf_sum : runs (sum_fiber_async 2 exf_src 3 exf_dst 1 1 false) exf_s (fun s' => elem s' exf_dst [2; 4]%Z = 3 * 2 + 2 * 6).
Proof.
  destruct exf_hyps as (HA & HB & Hm & Hd & S1 & S2).
  eapply runs_weaken; [apply (proj1 (C17_sum_fiber 2 3 exf_src exf_dst 1 1 exf_s HA HB ltac:(lia))); assumption|].
  intros s' _ [H1 _]. rewrite H1 by (repeat constructor; lia).
  assert (HA' := wf_wft _ HA). assert (HB' := wf_wft _ HB).
  assert (D : disj exf_dst exf_src) by (intros h X Y; apply (Hd h); assumption).
  assert (E1 : elem exf_s exf_dst [2; 4]%Z = 2).
  { unfold exf_s, put at 1. rewrite put_elem_other; [|assumption|assumption|repeat constructor; lia].
    rewrite put_elem; [reflexivity|assumption|repeat constructor; lia]. }
  rewrite E1. f_equal. f_equal. unfold fiber_sum.
  rewrite (Rsuml_ext _ _ (fun i => IZR (zn i 0))).
  - match goal with |- context [filter ?P ?l] => let x := eval vm_compute in (filter P l) in change (filter P l) with x end.
    unfold Rsuml. cbn [fold_right]. repeat match goal with |- context [zn ?l 0] => let x := eval vm_compute in (zn l 0%Z) in change (zn l 0%Z) with x end.
    lra.
  - intros idx Hi. apply filter_In in Hi as [Hi _]. unfold exf_s. rewrite put_elem; [reflexivity|assumption|].
    apply all_idx_In in Hi; [assumption|]. repeat constructor.
Qed.
