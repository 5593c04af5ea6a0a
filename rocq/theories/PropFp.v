(** * C64: rounding errors of sum_slice and sum_fiber in binary32 *)
From Coq Require Import Reals Lra ZArith Lia Floats.SpecFloat.
From Flocq Require Import Core BinarySingleNaN.
From Verif Require Import Base Spec Geometry Traits TraitsProofs Runtime Ops TensorSem ElemGeneric OneOut KernelsElem ElemOps Axis AccRuns Loops Concrete RSum SliceGeo SliceOps SliceProofs SliceReduce GemmRuns PropElem PropSlice FiberGeo FiberOps FiberProofs FiberReduce PropFiber Binary32 Fp32 KahanErr.
Local Close Scope Z_scope.
Local Open Scope R_scope.

(** ** The tiles one after the other *)
Section Tiles.
Variables (alpha : f32) (M : R).
Hypothesis Fa : fin32 alpha.
Hypothesis HM : M <= bpow radix2 124.
(** After [j] tiles: the computed value [r] for the exact value [T]; [m] bounds the terms added so far. *)
Record ainv (j : R) (r : f32) (T m : R) : Prop := {
  ai_fin : fin32 r; ai_T : Rabs T <= m;
  ai_err : Rabs (fval r - T) <= 8 * u32 * m + 3 * j * u32 * M + (4 * j + 1) * eta32
}.
Lemma ainv_step j r T m st S X : ainv j r T m -> 0 <= j <= 1048576 -> tsum st S X -> m + Rabs (fval alpha) * X <= M ->
  ainv (j + 1) (f32_add (f32_sub r (f32_mul alpha (snd st))) (f32_mul alpha (fst st))) (T + fval alpha * S) (m + Rabs (fval alpha) * X).
Proof.
  intros [a1 a2 a3] Hj HT Hm. pose proof (Rabs_pos T) as PT. pose proof (Rabs_pos (fval alpha)) as Pa. pose proof (tu_S _ _ _ HT) as HS. pose proof (Rabs_pos S) as PS.
  pose proof u32_pos as U. pose proof eta32_pos as PE. pose proof eta124 as Q3.
  set (A := Rabs (fval alpha) * X) in *. assert (HA : 0 <= A) by (apply Rmult_le_pos; lra).
  assert (HjM : 0 <= j * M <= 1048576 * M) by (split; [apply Rmult_le_pos|apply Rmult_le_compat_r]; lra).
  assert (Hje : 0 <= j * eta32 <= 1048576 * eta32) by (split; [apply Rmult_le_pos|apply Rmult_le_compat_r]; lra).
  assert (Heta : 16777216 * eta32 <= bpow radix2 124).
  { change 16777216 with (bpow radix2 24). unfold eta32. rewrite <- bpow_plus. apply bpow_le. lia. }
  set (R0 := m + (8 * u32 * m + 3 * j * u32 * M + (4 * j + 1) * eta32)).
  assert (HR : Rabs (fval r) <= R0) by (replace (fval r) with (T + (fval r - T)) by ring; apply ra; assumption).
  assert (E0 : R0 = m + (8 * u32 * m + 3 * u32 * (j * M) + (4 * (j * eta32) + eta32))) by (unfold R0; ring).
  destruct (add_tile alpha r st S X R0 Fa a1 HT) as (K1 & K2); [fold A; lra|exact HR|rewrite E0, u32_val in *; lra|].
  fold A in K2. split; [exact K1|apply ra; [exact a2|]|].
  - eapply Rle_trans; [apply rm; [apply Rle_refl|exact HS]|]. apply Rle_refl.
  - apply Rle_trans with (((2 * u32 + u32 * u32) * R0 + 6 * u32 * A + 3 * eta32) + (8 * u32 * m + 3 * j * u32 * M + (4 * j + 1) * eta32)).
    + match goal with |- Rabs (fval ?x - _) <= _ => replace (fval x - (T + fval alpha * S)) with ((fval x - (fval r + fval alpha * S)) + (fval r - T)) by ring end.
      apply ra; assumption.
    + replace (8 * u32 * (m + A) + 3 * (j + 1) * u32 * M + (4 * (j + 1) + 1) * eta32) with (8 * u32 * m + 8 * u32 * A + 3 * u32 * (j * M) + 3 * u32 * M + 4 * (j * eta32) + 5 * eta32) by ring.
      replace (8 * u32 * m + 3 * j * u32 * M + (4 * j + 1) * eta32) with (8 * u32 * m + 3 * u32 * (j * M) + 4 * (j * eta32) + eta32) by ring.
      rewrite E0, u32_val in *. lra.
Qed.
(** Tiles [l], all added with beta = 1. *)
Lemma ainv_fold {I} (l : list I) (st : I -> f32 * f32) (S X : I -> R) : forall j r T m, ainv j r T m -> 0 <= j -> j + INR (List.length l) <= 1048576 ->
  (forall i, In i l -> tsum (st i) (S i) (X i)) -> m + Rabs (fval alpha) * Rsuml l X <= M ->
  ainv (j + INR (List.length l)) (fold_left (fun r i => f32_add (f32_sub (f32_mul o_one r) (f32_mul alpha (snd (st i)))) (f32_mul alpha (fst (st i)))) l r)
    (T + fval alpha * Rsuml l S) (m + Rabs (fval alpha) * Rsuml l X).
Proof.
  induction l as [|i l IH]; intros j r T m HI Hj Hn HT Hm; cbn [fold_left].
  - change (INR (List.length (@nil I))) with 0. rewrite !Rsuml_nil, !Rmult_0_r, !Rplus_0_r. exact HI.
  - change (List.length (i :: l)) with (Datatypes.S (List.length l)) in *. rewrite S_INR, !Rsuml_cons in *. pose proof (pos_INR (List.length l)) as PI.
    assert (HX : forall i', In i' (i :: l) -> 0 <= X i') by (intros i' Hi'; pose proof (tu_S _ _ _ (HT i' Hi')); pose proof (Rabs_pos (S i')); lra).
    assert (HXl : 0 <= Rsuml l X) by (apply Rsuml_nonneg; intros; apply HX; right; assumption).
    pose proof (Rabs_pos (fval alpha)) as Pa. assert (0 <= Rabs (fval alpha) * Rsuml l X) by (apply Rmult_le_pos; assumption).
    destruct (f_mul1 r (ai_fin _ _ _ _ HI)) as [F1 F2].
    assert (HI' : ainv j (f32_mul o_one r) T m) by (destruct HI as [a1 a2 a3]; split; [exact F1|exact a2|rewrite F2; exact a3]).
    replace (j + (INR (List.length l) + 1)) with (j + 1 + INR (List.length l)) by ring. rewrite !Rmult_plus_distr_l, <- !Rplus_assoc in *.
    apply IH; try lra.
    + apply (ainv_step j _ T m (st i) (S i) (X i) HI'); [lra|apply HT; left; reflexivity|lra].
    + intros i' Hi'. apply HT. right. assumption.
Qed.
End Tiles.

Lemma eqb_zero (x : f32) : o_eqb x o_zero = true -> fval x = 0.
Proof. destruct x as [[]|[]| |[] m e]; cbn [o_eqb o_zero F32ops SFeqb SFcompare]; try discriminate; reflexivity. Qed.

Lemma zero_eqb (x : f32) : fin32 x -> fval x = 0 -> o_eqb x o_zero = true.
Proof.
  intros [_ H2] H0. destruct x as [[]|[]| |sg m e]; try reflexivity; try discriminate. exfalso. unfold fval in H0. cbn [SF2R] in H0. apply eq_0_F2R in H0. destruct sg; discriminate.
Qed.
Lemma mul_comm32 x y : f32_mul x y = f32_mul y x.
Proof.
  unfold f32_mul. destruct x as [sx|sx| |sx mx ex], y as [sy|sy| |sy my ey]; cbn [SFmul]; try reflexivity; try (rewrite xorb_comm; reflexivity).
  rewrite xorb_comm, Pos.mul_comm, Z.add_comm. reflexivity.
Qed.

(** All tiles: the first with [beta]; [f0] is the product of alpha and the sum when beta = 0. *)
Lemma tiles_error {I} (alpha beta : f32) (i0 : I) (l : list I) (st : I -> f32 * f32) (S X : I -> R) old first :
  fin32 alpha -> fin32 beta -> (fval beta = 0 \/ fin32 old) ->
  first = f32_mul alpha (fst (st i0)) \/ first = f32_mul (fst (st i0)) alpha ->
  (forall i, In i (i0 :: l) -> tsum (st i) (S i) (X i)) -> INR (List.length (i0 :: l)) <= 1048576 ->
  let M := Rabs (fval beta * fval old) + Rabs (fval alpha) * Rsuml (i0 :: l) X in M <= bpow radix2 124 ->
  let r := fold_left (fun r i => f32_add (f32_sub (f32_mul o_one r) (f32_mul alpha (snd (st i)))) (f32_mul alpha (fst (st i)))) l
    (if o_eqb beta o_zero then first else f32_add (f32_sub (f32_mul beta old) (f32_mul alpha (snd (st i0)))) (f32_mul alpha (fst (st i0)))) in
  fin32 r /\ Rabs (fval r - (fval beta * fval old + fval alpha * Rsuml (i0 :: l) S)) <=
    (3 * INR (List.length (i0 :: l)) + 8) * u32 * M + (4 * INR (List.length (i0 :: l)) + 1) * eta32.
Proof.
  intros Fa Fb Ho Ef HT Hg M HM r. unfold r. clear r. pose proof u32_pos as U. pose proof eta32_pos as PE.
  change (List.length (i0 :: l)) with (Datatypes.S (List.length l)) in *. rewrite S_INR in *. pose proof (pos_INR (List.length l)) as PI. unfold M in HM |- *. rewrite !Rsuml_cons in *.
  assert (HX : forall i', In i' (i0 :: l) -> 0 <= X i') by (intros i' Hi'; pose proof (tu_S _ _ _ (HT i' Hi')); pose proof (Rabs_pos (S i')); lra).
  assert (HXl : 0 <= Rsuml l X) by (apply Rsuml_nonneg; intros; apply HX; right; assumption).
  assert (HX0 := HX i0 ltac:(left; reflexivity)). assert (HT0 := HT i0 ltac:(left; reflexivity)).
  pose proof (Rabs_pos (fval alpha)) as Pa. pose proof (Rabs_pos (fval beta * fval old)) as Pb.
  assert (PX0 : 0 <= Rabs (fval alpha) * X i0) by (apply Rmult_le_pos; assumption). assert (PXl : 0 <= Rabs (fval alpha) * Rsuml l X) by (apply Rmult_le_pos; assumption).
  rewrite !Rmult_plus_distr_l, <- !Rplus_assoc in *.
  set (m0 := Rabs (fval beta * fval old) + Rabs (fval alpha) * X i0) in *. fold M. set (M' := m0 + Rabs (fval alpha) * Rsuml l X) in *.
  assert (HS : Rabs (fval alpha * S i0) <= Rabs (fval alpha) * X i0) by (apply rm; [apply Rle_refl|apply (tu_S _ _ _ HT0)]).
  assert (HMb : Rabs (fval beta * fval old) <= bpow radix2 124) by (unfold M', m0 in *; lra).
  assert (HM0 : Rabs (fval alpha) * X i0 <= bpow radix2 124) by (unfold M', m0 in *; lra). assert (Hm0 : Rabs (fval alpha) * X i0 <= m0) by (unfold m0; lra). assert (HMp : 0 <= M') by (unfold M', m0; lra).
  assert (HI : ainv M' 1 (if o_eqb beta o_zero then first else f32_add (f32_sub (f32_mul beta old) (f32_mul alpha (snd (st i0)))) (f32_mul alpha (fst (st i0))))
      (fval beta * fval old + fval alpha * S i0) m0).
  { destruct (o_eqb beta o_zero) eqn:Eb.
    - apply eqb_zero in Eb. replace (fval beta * fval old + fval alpha * S i0) with (fval alpha * S i0) by (rewrite Eb; ring).
      destruct (first_zero alpha (st i0) (S i0) (X i0) Fa HT0 HM0) as [K1 K2].
      assert (first_eq : fin32 first /\ fval first = fval (f32_mul alpha (fst (st i0)))).
      { destruct Ef as [-> | ->]; [split; [assumption|reflexivity]|]. rewrite mul_comm32. split; [assumption|reflexivity]. }
      destruct first_eq as [K3 K4]. split; [exact K3|lra|]. rewrite K4. assert (8 * u32 * (Rabs (fval alpha) * X i0) <= 8 * u32 * m0) by (apply Rmult_le_compat_l; lra). assert (0 <= u32 * M') by (apply Rmult_le_pos; lra). lra.
    - destruct Ho as [Ho|Ho].
      { rewrite zero_eqb in Eb by assumption. discriminate. }
      destruct (f_mul beta old Fb Ho) as (F1 & d & e & D1 & D2 & D3). { rewrite <- p124'. pose proof (bpow_gt_0 radix2 124). lra. }
      assert (H0 : ainv M' 0 (f32_mul beta old) (fval beta * fval old) (Rabs (fval beta * fval old))).
      { split; [exact F1|apply Rle_refl|]. rewrite D3. replace (fval beta * fval old * (1 + d) + e - fval beta * fval old) with (fval beta * fval old * d + e) by ring.
        eapply Rle_trans; [apply ra; [apply (rm _ _ _ _ (Rle_refl _) D1)|exact D2]|]. nra. }
      replace 1 with (0 + 1) by ring. apply (ainv_step alpha M' Fa HM 0 _ _ _ (st i0) (S i0) (X i0) H0); [lra|exact HT0|]. fold m0. unfold M'. lra. }
  pose proof (ainv_fold alpha M' Fa HM l st S X 1 _ _ m0 HI ltac:(lra) ltac:(lra) ltac:(intros; apply HT; right; assumption) (Rle_refl _)) as [K1 K2 K3].
  split; [exact K1|]. eapply Rle_trans; [exact K3|]. unfold M', m0. right. ring.
Qed.

(** ** sum_slice *)
(** Bound on the rounding error when the terms come from [g] tiles: [M] is the sum of the absolute
    values of all terms.  It does not depend on the number of terms. *)
Definition sum_error (g : Z) (M : R) : R := (3 * IZR g + 8) * u32 * M + (4 * IZR g + 1) * eta32.
Definition abs_sum (n : Z) (f : Z -> R) : R := Rsum n (fun k => Rabs (f k)).

Lemma Rsuml_ge1 {A} (l : list A) X i : (forall i, 0 <= X i) -> In i l -> X i <= Rsuml l X.
Proof.
  intros PX. induction l as [|j l IH]; [intros []|]. rewrite Rsuml_cons. assert (0 <= Rsuml l X) by (apply Rsuml_nonneg; auto). intros [->|Hi]; [lra|]. specialize (IH Hi). pose proof (PX j). lra.
Qed.
Lemma len_zrange n : (0 <= n)%Z -> INR (List.length (zrange n)) = IZR n.
Proof. intros H. rewrite INR_IZR_INZ. f_equal. change (Z.of_nat (List.length (zrange n))) with (zlen (zrange n)). apply zlen_zrange. assumption. Qed.

Lemma ksum_tsum n (f : Z -> f32) : (0 <= n <= 1048576)%Z -> (forall i, (0 <= i < n)%Z -> fin32 (f i)) -> abs_sum n (fun i => fval (f i)) <= bpow radix2 125 ->
  tsum (ksum n f) (Rsum n (fun i => fval (f i))) (abs_sum n (fun i => fval (f i))).
Proof.
  intros Hn HF HB. assert (K : 13 * (0 + IZR n) * u32 <= 1) by (assert (IZR n <= 1048576) by (apply IZR_le; lia); rewrite u32_val; lra).
  assert (Hn0 : 0 <= IZR n) by (apply IZR_le; lia).
  apply (kinv_tsum (0 + IZR n)); [|lra|exact K].
  pose proof (kinv_fold (zrange n) f 0 (o_zero, o_zero) 0 0 kinv_start ltac:(lra)) as H. rewrite len_zrange, !Rplus_0_l in H by lia. rewrite Rplus_0_l in K |- *. apply H; [exact K| |exact HB].
  intros i Hi. apply zrange_In in Hi. apply HF. assumption.
Qed.

(** The terms [x] of one element of the result, tile after tile. *)
Lemma axis_error (alpha beta : f32) src dst axis (x : Z -> f32) old : wft src -> slice_match src dst axis -> fin32 alpha -> fin32 beta ->
  let n := zn (t_shape src) axis in let tile := zn (t_base src) axis in let g := ((n + tile - 1) / tile)%Z in
  (tile <= 2 ^ 20)%Z -> (g <= 2 ^ 20)%Z ->
  let M := Rabs (fval beta * fval old) + Rabs (fval alpha) * abs_sum n (fun k => fval (x k)) in
  (forall k, (0 <= k < n)%Z -> fin32 (x k)) -> (fval beta = 0 \/ fin32 old) -> abs_sum n (fun k => fval (x k)) <= bpow radix2 125 -> M <= bpow radix2 124 ->
  let r := fold_left (fun v j => kres alpha (bj beta j) (ksum (ax_len src axis j) (fun l => x (j * zn (t_base src) axis + l)%Z)) v) (zrange (sg_n src axis)) old in
  fin32 r /\ Rabs (fval r - (fval beta * fval old + fval alpha * Rsum n (fun k => fval (x k)))) <= sum_error g M.
Proof.
  intros Hs Hm Fa Fb n tile g Ht Hg M HF Ho HX HM r.
  pose proof (wf_len _ Hs) as Hl. assert (Ha : (0 <= axis < zlen (t_shape src))%Z) by apply Hm.
  assert (Eg : sg_n src axis = g) by (unfold sg_n; rewrite zn_gridZ by (assumption || lia); reflexivity).
  pose proof (sg_n_pos src dst axis Hs Hm) as Hg0. unfold r. clear r. rewrite Eg in *.
  set (xs := fun j l => x (j * tile + l)%Z).
  set (st := fun j => ksum (ax_len src axis j) (xs j)).
  set (S := fun j => Rsum (ax_len src axis j) (fun l => fval (xs j l))). set (X := fun j => Rsum (ax_len src axis j) (fun l => Rabs (fval (xs j l)))).
  assert (ES : Rsuml (zrange g) S = Rsum n (fun k => fval (x k))) by (unfold n; rewrite <- (axis_sum src dst axis (fun k => fval (x k))) by assumption; rewrite Eg; reflexivity).
  assert (EX : Rsuml (zrange g) X = abs_sum n (fun k => fval (x k))) by (unfold abs_sum, n; rewrite <- (axis_sum src dst axis (fun k => Rabs (fval (x k)))) by assumption; rewrite Eg; reflexivity).
  assert (PX : forall j, 0 <= X j) by (intros j; apply Rsuml_nonneg; intros; apply Rabs_pos).
  assert (HT : forall j, In j (zrange g) -> tsum (st j) (S j) (X j)).
  { intros j Hj. pose proof Hj as Hj'. apply zrange_In in Hj. unfold st, S, X. assert (HP := ax_pos src dst axis j Hs Hm ltac:(rewrite Eg; exact Hj)).
    apply ksum_tsum.
    - split; [exact HP|]. unfold ax_len. fold tile. change (2 ^ 20)%Z with 1048576%Z in Ht. lia.
    - intros l Hl'. apply HF. assert (Htile : (0 < tile)%Z) by (apply pos_zn; [apply wf_pb; assumption|lia]). unfold ax_len in Hl'. fold tile n in Hl'. nia.
    - apply Rle_trans with (Rsuml (zrange g) X); [|rewrite EX; exact HX].
      apply (Rsuml_ge1 (zrange g) X j PX Hj'). }
  assert (Ez : exists l, zrange g = 0%Z :: l /\ forall j, In j l -> (0 < j)%Z).
  { replace g with (1 + (g - 1))%Z by ring. exists (map (fun l => 1 + l)%Z (zrange (g - 1))). rewrite zrange_add by lia. split; [reflexivity|]. intros j Hj. apply in_map_iff in Hj as (y & <- & Hy). apply zrange_In in Hy. lia. }
  destruct Ez as (l & Ez & Hl0).
  pose proof (tiles_error alpha beta 0%Z l st S X old (f32_mul alpha (fst (st 0%Z))) Fa Fb Ho (or_introl eq_refl)) as T.
  rewrite <- Ez in T. rewrite len_zrange in T by lia. specialize (T HT). assert (Hg' : IZR g <= 1048576) by (apply IZR_le; exact Hg). specialize (T Hg'). cbv zeta in T. rewrite EX, ES in T. specialize (T HM).
  match type of T with fin32 ?a /\ _ => match goal with |- fin32 ?b /\ _ => assert (EE : b = a) end end.
  { rewrite Ez. cbn [fold_left]. unfold kres at 2. change (bj beta 0) with beta.
    change (ksum (ax_len src axis 0) (fun l0 => x (0 * zn (t_base src) axis + l0)%Z)) with (st 0%Z).
    apply fold_left_ext. intros v j Hj. specialize (Hl0 j Hj). unfold kres, bj. destruct (Z.eqb_spec j 0); [lia|]. reflexivity. }
  rewrite EE. exact T.
Qed.

Theorem C64_sum_slice_fp32 (alpha beta : f32) src dst axis s : wf_tensor src -> wf_tensor dst -> slice_match src dst axis -> disj src dst ->
  stored KF s src -> stored KF s dst -> fin32 alpha -> fin32 beta ->
  let n := zn (t_shape src) axis in let tile := zn (t_base src) axis in let g := ((n + tile - 1) / tile)%Z in
  (tile <= 2 ^ 20)%Z -> (g <= 2 ^ 20)%Z ->
  runs (sum_slice_async alpha src beta dst axis false) s (fun s' => forall idx, inb (t_shape dst) idx ->
    let x k := elem s src (ins axis k idx) in let old := elem s dst idx in
    let M := Rabs (fval beta * fval old) + Rabs (fval alpha) * abs_sum n (fun k => fval (x k)) in
    (forall k, (0 <= k < n)%Z -> fin32 (x k)) -> (fval beta = 0 \/ fin32 old) -> abs_sum n (fun k => fval (x k)) <= bpow radix2 124 -> M <= bpow radix2 124 ->
    fin32 (elem s' dst idx) /\
    Rabs (fval (elem s' dst idx) - (fval beta * fval old + fval alpha * Rsum n (fun k => fval (x k)))) <= sum_error g M).
Proof.
  intros Hs Hd Hm Hdj S1 S2 Fa Fb n tile g Ht Hg. apply wf_wft in Hs, Hd.
  eapply runs_weaken; [apply sum_slice_runs; assumption|]. intros s' _ [H1 _] idx Hi x old M HF Ho HX HM. rewrite H1 by assumption.
  apply (axis_error alpha beta src dst axis x old); try assumption. eapply Rle_trans; [exact HX|apply bpow_le; lia].
Qed.

(** ** sumprod_slice: the products are rounded before they are added *)
Definition prod_error (n g : Z) (a M : R) : R := (3 * IZR g + 10) * u32 * M + (4 * IZR g + 1 + 2 * a * IZR n) * eta32.
Theorem C64_sumprod_slice_fp32 (alpha beta : f32) src1 src2 dst axis s : wf_tensor src1 -> wf_tensor src2 -> wf_tensor dst ->
  slice_match src1 dst axis -> t_shape src2 = t_shape src1 -> t_base src2 = t_base src1 -> disj src1 dst -> disj src2 dst ->
  stored KF s src1 -> stored KF s src2 -> stored KF s dst -> fin32 alpha -> fin32 beta ->
  let n := zn (t_shape src1) axis in let tile := zn (t_base src1) axis in let g := ((n + tile - 1) / tile)%Z in
  (tile <= 2 ^ 20)%Z -> (g <= 2 ^ 20)%Z ->
  runs (sumprod_slice_async alpha src1 src2 beta dst axis false) s (fun s' => forall idx, inb (t_shape dst) idx ->
    let x k := elem s src1 (ins axis k idx) in let y k := elem s src2 (ins axis k idx) in let old := elem s dst idx in
    let M := Rabs (fval beta * fval old) + Rabs (fval alpha) * abs_sum n (fun k => fval (x k) * fval (y k)) in
    (forall k, (0 <= k < n)%Z -> fin32 (x k) /\ fin32 (y k)) -> (fval beta = 0 \/ fin32 old) ->
    abs_sum n (fun k => fval (x k) * fval (y k)) <= bpow radix2 124 -> M <= bpow radix2 123 ->
    fin32 (elem s' dst idx) /\
    Rabs (fval (elem s' dst idx) - (fval beta * fval old + fval alpha * Rsum n (fun k => fval (x k) * fval (y k)))) <= prod_error n g (Rabs (fval alpha)) M).
Proof.
  intros H1 H2 Hd Hm E1 E2 D1 D2 S1 S2 S3 Fa Fb n tile g Ht Hg. apply wf_wft in H1, H2, Hd.
  eapply runs_weaken; [apply sumprod_slice_runs; assumption|]. intros s' _ [J _] idx Hi x y old M HF Ho HX HM. rewrite J by assumption. clear J.
  pose proof u32_pos as U. pose proof eta32_pos as PE. set (a := Rabs (fval alpha)) in *. assert (Pa : 0 <= a) by apply Rabs_pos.
  set (p := fun k => f32_mul (x k) (y k)). set (xy := fun k => fval (x k) * fval (y k)). set (X := abs_sum n xy) in *.
  pose proof (wf_len _ H1) as Hl. assert (Ha : (0 <= axis < zlen (t_shape src1))%Z) by apply Hm.
  assert (Hn : (0 < n)%Z) by (apply pos_zn; [apply wf_ps; assumption|lia]). assert (Htile : (0 < tile)%Z) by (apply pos_zn; [apply wf_pb; assumption|lia]).
  assert (Hn' : (n <= 1099511627776)%Z).
  { change (2 ^ 20)%Z with 1048576%Z in *. pose proof (Z.div_mod (n + tile - 1) tile ltac:(lia)) as Q. pose proof (Z.mod_pos_bound (n + tile - 1) tile Htile). fold g in Q. nia. }
  assert (HnR : 0 <= IZR n <= 1099511627776) by (split; apply IZR_le; lia).
  assert (HgR : 0 <= IZR g <= 1048576) by (split; apply IZR_le; [apply Z.div_pos; lia|exact Hg]).
  assert (PX : forall k, (0 <= k < n)%Z -> Rabs (xy k) <= X).
  { intros k Hk. apply (Rsuml_ge1 (zrange n) (fun k => Rabs (xy k)) k); [intros; apply Rabs_pos|]. apply zrange_In. assumption. }
  assert (HX0 : 0 <= X) by (eapply Rle_trans; [apply Rabs_pos|apply (PX 0%Z); lia]).
  assert (HP : forall k, (0 <= k < n)%Z -> fin32 (p k) /\ Rabs (fval (p k) - xy k) <= u32 * Rabs (xy k) + eta32).
  { intros k Hk. destruct (HF k Hk) as [F1 F2]. destruct (f_mul (x k) (y k) F1 F2) as (K1 & d & e & K2 & K3 & K4).
    - eapply Rle_trans; [apply (PX k Hk)|]. eapply Rle_trans; [exact HX|apply bpow_le; lia].
    - split; [exact K1|]. unfold p. rewrite K4. fold (xy k). replace (xy k * (1 + d) + e - xy k) with (xy k * d + e) by ring. rewrite (Rmult_comm u32). apply ra; [apply rm; [apply Rle_refl|exact K2]|exact K3]. }
  assert (HD : Rsum n (fun k => u32 * Rabs (xy k) + eta32) = u32 * X + IZR n * eta32).
  { unfold Rsum. rewrite Rsuml_plus, Rsuml_scal. f_equal. apply (Rsum_const n eta32). lia. }
  assert (mono : forall f g, (forall k, (0 <= k < n)%Z -> f k <= g k) -> Rsum n f <= Rsum n g).
  { intros f h Hfh. unfold Rsum. assert (Hz : forall k, In k (zrange n) -> f k <= h k) by (intros k Hk; apply Hfh, zrange_In; assumption). revert Hz. generalize (zrange n) as l.
    induction l as [|k l IH]; intros Hz; [apply Rle_refl|]. rewrite !Rsuml_cons. apply Rplus_le_compat; [apply Hz; left; reflexivity|apply IH; intros; apply Hz; right; assumption]. }
  assert (Habs : forall f, Rabs (Rsum n f) <= Rsum n (fun k => Rabs (f k))).
  { intros f. unfold Rsum. generalize (zrange n) as l. induction l as [|k l IH]; [rewrite !Rsuml_nil, Rabs_R0; apply Rle_refl|]. rewrite !Rsuml_cons. apply ra; [apply Rle_refl|exact IH]. }
  assert (HS : Rabs (Rsum n (fun k => fval (p k)) - Rsum n xy) <= u32 * X + IZR n * eta32).
  { replace (Rsum n (fun k => fval (p k)) - Rsum n xy) with (Rsum n (fun k => fval (p k) - xy k)).
    - eapply Rle_trans; [apply Habs|]. rewrite <- HD. apply mono. intros k Hk. apply HP. assumption.
    - unfold Rsum. rewrite (Rsuml_ext _ _ (fun k => fval (p k) + (-1) * xy k)) by (intros; ring). rewrite Rsuml_plus, Rsuml_scal. ring. }
  assert (HXp : abs_sum n (fun k => fval (p k)) <= X + u32 * X + IZR n * eta32).
  { apply Rle_trans with (Rsum n (fun k => Rabs (xy k) + (u32 * Rabs (xy k) + eta32))).
    - apply mono. intros k Hk. replace (fval (p k)) with (xy k + (fval (p k) - xy k)) by ring. apply ra; [apply Rle_refl|apply HP; assumption].
    - rewrite Rplus_assoc, <- HD. unfold Rsum. rewrite Rsuml_plus. apply Rle_refl. }
  assert (HaX : 0 <= a * X) by (apply Rmult_le_pos; assumption). assert (Pn : 0 <= a * (IZR n * eta32)) by (apply Rmult_le_pos; [exact Pa|apply Rmult_le_pos; lra]).
  assert (EM : M = Rabs (fval beta * fval old) + a * X) by reflexivity.
  assert (HaX' : a * X <= M) by (rewrite EM; pose proof (Rabs_pos (fval beta * fval old)); lra).
  assert (Hal : a <= bpow radix2 128) by (destruct (fin_b32 alpha Fa) as (q & _ & _ & Eq); unfold a; rewrite <- Eq; left; apply abs_B2R_lt_emax).
  assert (Hsm : IZR n * eta32 <= bpow radix2 (-110)).
  { replace (bpow radix2 (-110)) with (1099511627776 * eta32) by (unfold eta32; change 1099511627776 with (bpow radix2 40); rewrite <- bpow_plus; reflexivity). apply Rmult_le_compat_r; lra. }
  assert (Hsm' : a * (IZR n * eta32) <= bpow radix2 18).
  { replace (bpow radix2 18) with (bpow radix2 128 * bpow radix2 (-110)) by (rewrite <- bpow_plus; reflexivity). apply Rmult_le_compat; try assumption. apply Rmult_le_pos; lra. }
  assert (B123 : 2 * bpow radix2 123 = bpow radix2 124) by (change 2 with (bpow radix2 1); rewrite <- bpow_plus; reflexivity).
  assert (B124 : 2 * bpow radix2 124 = bpow radix2 125) by (change 2 with (bpow radix2 1); rewrite <- bpow_plus; reflexivity).
  assert (Bs : bpow radix2 18 <= / 2 * bpow radix2 123) by (change (/ 2) with (bpow radix2 (-1)); rewrite <- bpow_plus; apply bpow_le; lia).
  assert (Bt : bpow radix2 (-110) <= bpow radix2 18) by (apply bpow_le; lia).
  assert (HX' : X <= bpow radix2 124) by exact HX. assert (P123 := bpow_gt_0 radix2 123). assert (HM' : M <= bpow radix2 123) by exact HM.
  set (Mp := Rabs (fval beta * fval old) + a * abs_sum n (fun k => fval (p k))).
  assert (HMp : Mp <= M + u32 * (a * X) + a * (IZR n * eta32)).
  { unfold Mp. rewrite EM. assert (a * abs_sum n (fun k => fval (p k)) <= a * (X + u32 * X + IZR n * eta32)) by (apply Rmult_le_compat_l; assumption). lra. }
  destruct (axis_error alpha beta src1 dst axis p old H1 Hm Fa Fb Ht Hg) as [R1 R2].
  - intros k Hk. apply HP. assumption.
  - exact Ho.
  - fold n. eapply Rle_trans; [exact HXp|]. clear R1 R2 || idtac. rewrite u32_val. lra.
  - fold n a Mp. eapply Rle_trans; [exact HMp|]. rewrite u32_val. lra.
  - fold n a Mp tile g in R2. split; [exact R1|]. match type of R2 with Rabs (fval ?r - _) <= _ => set (rr := fval r) in * end.
    match goal with |- Rabs (?q - _) <= _ => change q with rr end. change (Rsum n (fun k => fval (x k) * fval (y k))) with (Rsum n xy).
    replace (rr - (fval beta * fval old + fval alpha * Rsum n xy)) with ((rr - (fval beta * fval old + fval alpha * Rsum n (fun k => fval (p k)))) + fval alpha * (Rsum n (fun k => fval (p k)) - Rsum n xy)) by ring.
    eapply Rle_trans; [apply ra; [exact R2|apply rm; [apply Rle_refl|exact HS]]|]. fold a. unfold sum_error, prod_error.
    assert (G1 : (3 * IZR g + 8) * u32 * Mp <= (3 * IZR g + 8) * u32 * M + / 5 * (u32 * (a * X)) + / 5 * (a * (IZR n * eta32))).
    { assert (0 <= (3 * IZR g + 8) * u32 <= / 5) by (rewrite u32_val; lra).
      apply Rle_trans with ((3 * IZR g + 8) * u32 * (M + u32 * (a * X) + a * (IZR n * eta32))); [apply Rmult_le_compat_l; lra|].
      assert (0 <= u32 * (a * X)) by (apply Rmult_le_pos; lra). nra. }
    assert (G2 : u32 * (a * X) <= u32 * M) by (apply Rmult_le_compat_l; lra).
    replace ((3 * IZR g + 10) * u32 * M + (4 * IZR g + 1 + 2 * a * IZR n) * eta32) with ((3 * IZR g + 8) * u32 * M + 2 * (u32 * M) + (4 * IZR g + 1) * eta32 + 2 * (a * (IZR n * eta32))) by ring.
    assert (0 <= u32 * M) by (apply Rmult_le_pos; lra). lra.
Qed.

(** ** sum_fiber *)
(** the indices of [src] that contribute to element [d] of the result, and the numbers of their tiles *)
Definition fiber_idx (src : tensor) (axis b : Z) (d : list Z) : list (list Z) :=
  filter (fun idx => list_eqb Z.eqb (fib axis b idx) d) (all_idx (t_shape src)).
Definition fiber_tiles (src : tensor) (axis b : Z) (d : list Z) : list Z := nodup Z.eq_dec (map (etile src) (fiber_idx src axis b d)).

Lemma Rsuml_prod (l k : list Z) f : Rsuml (list_prod l k) f = Rsuml l (fun x => Rsuml k (fun y => f (x, y))).
Proof. induction l as [|x l IH]; [reflexivity|]. cbn [list_prod]. rewrite Rsuml_app, IH, Rsuml_map, Rsuml_cons. reflexivity. Qed.
Lemma fold_prod {A} (l k : list Z) (h : A -> Z * Z -> A) : forall a, fold_left h (list_prod l k) a = fold_left (fun a j => fold_left (fun a i => h a (j, i)) k a) l a.
Proof.
  induction l as [|x l IH]; intros a; [reflexivity|]. cbn [list_prod fold_left]. rewrite fold_left_app, IH. f_equal.
  clear IH. revert a. induction k as [|y k IH]; intros a; [reflexivity|]. cbn [map fold_left]. apply IH.
Qed.
Lemma ksum2_tsum n m (f : Z -> Z -> f32) : (0 <= n)%Z -> (0 <= m)%Z -> (n * m <= 1048576)%Z -> (forall j i, (0 <= j < n)%Z -> (0 <= i < m)%Z -> fin32 (f j i)) ->
  Rsum n (fun j => Rsum m (fun i => Rabs (fval (f j i)))) <= bpow radix2 125 ->
  tsum (ksum2 n m f) (Rsum n (fun j => Rsum m (fun i => fval (f j i)))) (Rsum n (fun j => Rsum m (fun i => Rabs (fval (f j i))))).
Proof.
  intros Hn Hm Hc HF HB. set (l := list_prod (zrange n) (zrange m)). set (g := fun p : Z * Z => f (fst p) (snd p)).
  assert (EL : INR (List.length l) = IZR (n * m)).
  { unfold l. rewrite prod_length, mult_INR, !len_zrange by assumption. rewrite mult_IZR. reflexivity. }
  assert (ES : Rsuml l (fun p => fval (g p)) = Rsum n (fun j => Rsum m (fun i => fval (f j i)))) by apply Rsuml_prod.
  assert (EX : Rsuml l (fun p => Rabs (fval (g p))) = Rsum n (fun j => Rsum m (fun i => Rabs (fval (f j i))))) by apply Rsuml_prod.
  assert (EK : ksum2 n m f = fold_left (fun st p => kahan (g p) st) l (o_zero, o_zero)) by (unfold l; rewrite fold_prod; reflexivity).
  rewrite EK, <- ES, <- EX. rewrite <- EX in HB.
  assert (K : 13 * (0 + INR (List.length l)) * u32 <= 1) by (rewrite EL; assert (IZR (n * m) <= 1048576) by (apply IZR_le; lia); rewrite u32_val; lra).
  apply (kinv_tsum (0 + INR (List.length l))); [|pose proof (pos_INR (List.length l)); lra|exact K].
  pose proof (kinv_fold l g 0 (o_zero, o_zero) 0 0 kinv_start ltac:(lra) K) as H. rewrite !Rplus_0_l in H. rewrite Rplus_0_l. apply H; [|exact HB].
  intros [j i] Hi. unfold l in Hi. apply in_prod_iff in Hi as [Hj Hi]. rewrite zrange_In in *. apply HF; assumption.
Qed.

Section Fiber.
Variables (src dst : tensor) (axis b : Z).
Hypothesis (HA : wft src) (HB : wft dst) (Hm : fiber_match src dst axis b).
Notation fo := (fg_out src dst axis b). Notation d4 i := (dim4 axis b (tsh src i)).
(** tiles of the fiber, and its part in one tile *)
Lemma fiber_tiles_len d : inb (t_shape dst) d ->
  (zlen (filter (fun i => fo i =? etile dst d) (zrange (ntiles src))) <= zlen (fiber_tiles src axis b d))%Z.
Proof.
  intros Hd. unfold zlen. apply inj_le. apply NoDup_incl_length; [apply NoDup_filter, NoDup_zrange|].
  intros i Hi. apply filter_In in Hi as [Hi Ei]. apply zrange_In in Hi. apply Z.eqb_eq in Ei. unfold fiber_tiles. apply nodup_In, in_map_iff.
  destruct (fg_sizes src dst axis b HA Hm i Hi) as (Q0 & _ & Q2 & _).
  destruct (fg_up src dst axis b HA HB Hm d i 0 0 Hd Hi Ei ltac:(lia) ltac:(lia)) as (U1 & U2). destruct (eidx_spec src i _ HA Hi U1) as (I1 & I2 & _).
  eexists. split; [exact I2|]. unfold fiber_idx. apply filter_In. split; [apply all_idx_In; [apply wf_ps; assumption|exact I1]|]. apply list_eqb_Z. exact U2.
Qed.
Lemma fiber_part d i : inb (t_shape dst) d -> (0 <= i < ntiles src)%Z -> fo i = etile dst d ->
  (zn (d4 i) 2 * zn (d4 i) 0 <= zlen (filter (fun idx => etile src idx =? i) (fiber_idx src axis b d)))%Z.
Proof.
  intros Hd Hi Ei. destruct (fg_sizes src dst axis b HA Hm i Hi) as (Q0 & _ & Q2 & _).
  set (os := filter (fun o => list_eqb Z.eqb (fib axis b (eidx src i o)) d) (zrange (tsz src i))).
  assert (E : (zn (d4 i) 2 * zn (d4 i) 0 = zlen os)%Z).
  { apply eq_IZR. pose proof (tile_fiber_sum src dst axis b HA HB Hm d i (fun _ => 1) Hd Hi Ei) as H. cbv zeta in H.
    unfold Rsum at 3 in H. rewrite <- (Rsuml_filter (fun o => list_eqb Z.eqb (fib axis b (eidx src i o)) d) _ (fun o => 1)) in H. fold os in H.
    rewrite Rsuml_const in H. rewrite (Rsum_ext _ _ (fun _ => IZR (zn (d4 i) 0) * 1)) in H by (intros; apply Rsum_const; lia). rewrite Rsum_const in H by lia.
    rewrite mult_IZR. unfold zlen. rewrite <- INR_IZR_INZ. lra. }
  rewrite E. unfold zlen. apply inj_le. rewrite <- (map_length (eidx src i) os). apply NoDup_incl_length.
  - assert (N : NoDup os) by (apply NoDup_filter, NoDup_zrange).
    assert (Hos : forall o, In o os -> (0 <= o < tsz src i)%Z) by (intros o Ho; apply filter_In in Ho as [Ho _]; apply zrange_In; assumption).
    clear E. induction os as [|o l IH]; [constructor|]. apply NoDup_cons_iff in N as [N1 N2]. cbn [map]. constructor; [|apply IH; [assumption|intros; apply Hos; right; assumption]].
    intros Hin. apply in_map_iff in Hin as (o' & E' & Ho'). destruct (eidx_spec src i o HA Hi (Hos o ltac:(left; reflexivity))) as (_ & _ & E1), (eidx_spec src i o' HA Hi (Hos o' ltac:(right; assumption))) as (_ & _ & E2).
    rewrite E' in E2. assert (Eoo : o = o') by congruence. apply N1. rewrite Eoo. exact Ho'.
  - intros idx Hin. apply in_map_iff in Hin as (o & <- & Ho). apply filter_In in Ho as [Ho Ef]. apply zrange_In in Ho. destruct (eidx_spec src i o HA Hi Ho) as (I1 & I2 & _).
    apply filter_In. split; [|rewrite I2; apply Z.eqb_refl]. apply filter_In. split; [apply all_idx_In; [apply wf_ps; assumption|exact I1]|exact Ef].
Qed.
End Fiber.

Theorem C64_sum_fiber_fp32 (alpha beta : f32) src dst axis b s : wf_tensor src -> wf_tensor dst -> fiber_match src dst axis b -> disj src dst ->
  stored KF s src -> stored KF s dst -> fin32 alpha -> fin32 beta ->
  runs (sum_fiber_async alpha src beta dst axis b false) s (fun s' => forall d, inb (t_shape dst) d ->
    let x idx := elem s src idx in let old := elem s dst d in let g := zlen (fiber_tiles src axis b d) in
    let X := Rsuml (fiber_idx src axis b d) (fun idx => Rabs (fval (x idx))) in
    let M := Rabs (fval beta * fval old) + Rabs (fval alpha) * X in
    (forall i, (zlen (filter (fun idx => etile src idx =? i) (fiber_idx src axis b d)) <= 2 ^ 20)%Z) -> (g <= 2 ^ 20)%Z ->
    (forall idx, In idx (fiber_idx src axis b d) -> fin32 (x idx)) -> (fval beta = 0 \/ fin32 old) -> X <= bpow radix2 124 -> M <= bpow radix2 124 ->
    fin32 (elem s' dst d) /\
    Rabs (fval (elem s' dst d) - (fval beta * fval old + fval alpha * Rsuml (fiber_idx src axis b d) (fun idx => fval (x idx)))) <= sum_error g M).
Proof.
  intros Hs Hd Hm Hdj S1 S2 Fa Fb. apply wf_wft in Hs, Hd.
  eapply runs_weaken; [apply sum_fiber_runs; assumption|]. intros s' _ [H1 _] d Hi x old g X M Ht Hg HF Ho HX HM. rewrite H1 by assumption.
  change (2 ^ 20)%Z with 1048576%Z in *.
  set (d4 := fun i => dim4 axis b (tsh src i)). set (q := fun i j k => eidx src i (fpos src axis b i (eoff dst d) j k)).
  set (L := filter (fun i => fg_out src dst axis b i =? etile dst d)%Z (zrange (ntiles src))).
  set (st := fun i => ksum2 (zn (d4 i) 2) (zn (d4 i) 0) (fun j k => x (q i j k))).
  set (S := fun i => Rsum (zn (d4 i) 2) (fun j => Rsum (zn (d4 i) 0) (fun k => fval (x (q i j k))))).
  set (Y := fun i => Rsum (zn (d4 i) 2) (fun j => Rsum (zn (d4 i) 0) (fun k => Rabs (fval (x (q i j k)))))).
  assert (ES : Rsuml L S = Rsuml (fiber_idx src axis b d) (fun idx => fval (x idx))) by exact (fiber_sum_tiles src dst axis b Hs Hd Hm d (fun idx => fval (x idx)) Hi).
  assert (EX : Rsuml L Y = X) by exact (fiber_sum_tiles src dst axis b Hs Hd Hm d (fun idx => Rabs (fval (x idx))) Hi).
  assert (PY : forall i, 0 <= Y i) by (intros i; apply Rsuml_nonneg; intros; apply Rsuml_nonneg; intros; apply Rabs_pos).
  assert (HT : forall i, In i L -> tsum (st i) (S i) (Y i)).
  { intros i HiL. pose proof HiL as HiL'. apply filter_In in HiL as [Hr Ei]. apply zrange_In in Hr. apply Z.eqb_eq in Ei.
    destruct (fg_sizes src dst axis b Hs Hm i Hr) as (Q0 & _ & Q2 & _). fold (d4 i) in Q0, Q2. apply ksum2_tsum; try lia.
    - pose proof (fiber_part src dst axis b Hs Hd Hm d i Hi Hr Ei) as K. specialize (Ht i). unfold d4. lia.
    - intros j k Hj Hk. apply HF. destruct (fg_up src dst axis b Hs Hd Hm d i k j Hi Hr Ei Hk Hj) as (U1 & U2). destruct (eidx_spec src i _ Hs Hr U1) as (I1 & _).
      apply filter_In. split; [apply all_idx_In; [apply wf_ps; assumption|exact I1]|]. apply list_eqb_Z. exact U2.
    - apply Rle_trans with (Rsuml L Y); [apply (Rsuml_ge1 L Y i PY HiL')|]. rewrite EX. eapply Rle_trans; [exact HX|apply bpow_le; lia]. }
  pose proof (etile_bound dst d Hd Hi) as Het.
  destruct (fg_filter src dst axis b Hs Hm (etile dst d) Het) as (i0 & l & EL & Hi0 & Hl0 & _). fold L in EL.
  assert (Hlen : IZR (zlen L) <= IZR g) by (apply IZR_le; apply (fiber_tiles_len src dst axis b Hs Hd Hm d Hi)).
  assert (Hg' : IZR g <= 1048576) by (apply IZR_le; exact Hg).
  assert (HlR : INR (List.length L) = IZR (zlen L)) by (rewrite INR_IZR_INZ; reflexivity).
  pose proof (tiles_error alpha beta i0 l st S Y old (f32_mul (fst (st i0)) alpha) Fa Fb Ho (or_intror eq_refl)) as T.
  rewrite <- EL in T. rewrite HlR in T. specialize (T HT ltac:(lra)). cbv zeta in T. rewrite EX, ES in T. specialize (T HM).
  match type of T with fin32 ?a /\ _ => match goal with |- fin32 ?b /\ _ => assert (EE : b = a) end end.
  { fold L. rewrite EL. cbn [fold_left]. unfold fres at 2. unfold bi at 2 3. rewrite Hi0. change (elem s dst d) with old.
    apply fold_left_ext. intros v j Hj. unfold fres, bi. rewrite (Hl0 j Hj). reflexivity. }
  rewrite EE. destruct T as [T1 T2]. split; [exact T1|]. eapply Rle_trans; [exact T2|]. unfold sum_error. fold M.
  pose proof u32_pos as U. pose proof eta32_pos as PE. assert (0 <= M).
  { unfold M. pose proof (Rabs_pos (fval beta * fval old)). pose proof (Rabs_pos (fval alpha)). assert (0 <= X) by (apply Rsuml_nonneg; intros; apply Rabs_pos). assert (0 <= Rabs (fval alpha) * X) by (apply Rmult_le_pos; assumption). lra. }
  apply Rplus_le_compat; [apply Rmult_le_compat_r; [assumption|]; apply Rmult_le_compat_r; lra|apply Rmult_le_compat_r; lra].
Qed.

(** ** The hypotheses can be met, and the bound is not met without compensation *)
(** 2^24 + 1 + 1: the compensated sum is exact, the plain one loses both ones. *)
Definition big_then_ones (k : Z) : f32 := if (k =? 0)%Z then f32_of 1 24 else f32_of 1 0.
Lemma ksum_keeps_small_terms : fst (ksum 3 big_then_ones) = f32_of 16777218 0 /\
  fold_left (fun a k => f32_add a (big_then_ones k)) (zrange 3) o_zero = f32_of 1 24.
Proof. split; vm_compute; reflexivity. Qed.

(** Contents: all elements one, the result uninitialised (NaN) and beta = 0. *)
Definition ex32 : store f32 := put ex_src (fun _ => o_one) (put ex_dst (fun _ => S754_nan) (fun _ => BF [])).
Lemma ex32_sum : runs (sum_slice_async (o_one : f32) ex_src o_zero ex_dst 0 false) ex32 (fun s' => forall idx, inb (t_shape ex_dst) idx ->
  fin32 (elem s' ex_dst idx) /\ Rabs (fval (elem s' ex_dst idx) - 5) <= sum_error 3 5).
Proof.
  destruct ex_slice_hyps as (HA & HB & Hm & Hd & _). assert (D : disj ex_dst ex_src) by (intros h K1 K2; apply (Hd h); assumption).
  assert (S1 : stored KF ex32 ex_src) by (apply put_stored, wf_wft; assumption).
  assert (S2 : stored KF ex32 ex_dst) by (apply put_stored_other; [apply wf_wft; assumption|assumption|apply put_stored, wf_wft; assumption]).
  eapply runs_weaken; [apply (C64_sum_slice_fp32 o_one o_zero ex_src ex_dst 0 ex32 HA HB Hm Hd S1 S2 fin_one fin_zero); vm_compute; discriminate|].
  intros s' _ H idx Hi. specialize (H idx Hi). cbv zeta beta in H. change (zn (t_shape ex_src) 0) with 5%Z in H. change (zn (t_base ex_src) 0) with 2%Z in H. change ((5 + 2 - 1) / 2)%Z with 3%Z in H.
  assert (Hx : forall k, (0 <= k < 5)%Z -> elem ex32 ex_src (ins 0 k idx) = o_one).
  { intros k Hk. apply (put_elem ex_src (fun _ => o_one)); [apply wf_wft; assumption|]. change (ins 0 k idx) with (k :: idx). constructor; [exact Hk|exact Hi]. }
  assert (E1 : Rsum 5 (fun k => fval (elem ex32 ex_src (ins 0 k idx))) = 5) by (rewrite (Rsum_ext _ _ (fun _ => 1)) by (intros k Hk; rewrite Hx by assumption; apply fval_one); rewrite Rsum_const by lia; lra).
  assert (E2 : abs_sum 5 (fun k => fval (elem ex32 ex_src (ins 0 k idx))) = 5) by (unfold abs_sum; rewrite (Rsum_ext _ _ (fun _ => 1)) by (intros k Hk; rewrite Hx by assumption; rewrite fval_one; apply Rabs_R1); rewrite Rsum_const by lia; lra).
  rewrite E1, E2, fval_zero, fval_one, Rmult_0_l, Rabs_R0, Rabs_R1, !Rplus_0_l, !Rmult_1_l in H.
  assert (H5 : 5 <= bpow radix2 124) by (apply Rle_trans with (bpow radix2 3); [change (bpow radix2 3) with 8; lra|apply bpow_le; lia]).
  apply H; [|left; reflexivity|exact H5|exact H5]. intros k Hk. rewrite Hx by assumption. apply fin_one.
Qed.
Definition exf32 : store f32 := put exf_src (fun _ => o_one) (put exf_dst (fun _ => S754_nan) (fun _ => BF [])).
Lemma exf32_sum : runs (sum_fiber_async (o_one : f32) exf_src o_zero exf_dst 1 1 false) exf32 (fun s' =>
  fin32 (elem s' exf_dst [2; 4]%Z) /\ Rabs (fval (elem s' exf_dst [2; 4]%Z) - 4) <= sum_error 2 4).
Proof.
  destruct exf_hyps as (HA & HB & Hm & Hd & _). assert (D : disj exf_dst exf_src) by (intros h K1 K2; apply (Hd h); assumption).
  assert (S1 : stored KF exf32 exf_src) by (apply put_stored, wf_wft; assumption).
  assert (S2 : stored KF exf32 exf_dst) by (apply put_stored_other; [apply wf_wft; assumption|assumption|apply put_stored, wf_wft; assumption]).
  eapply runs_weaken; [apply (C64_sum_fiber_fp32 o_one o_zero exf_src exf_dst 1 1 exf32 HA HB Hm Hd S1 S2 fin_one fin_zero)|].
  intros s' _ H. specialize (H [2; 4]%Z ltac:(repeat constructor; lia)). cbv zeta beta in H.
  change (zlen (fiber_tiles exf_src 1 1 [2; 4]%Z)) with 2%Z in H.
  assert (Hx : forall idx, In idx (fiber_idx exf_src 1 1 [2; 4]%Z) -> elem exf32 exf_src idx = o_one).
  { intros idx Hi. apply (put_elem exf_src (fun _ => o_one)); [apply wf_wft; assumption|]. apply filter_In in Hi as [Hi _]. apply all_idx_In in Hi; [exact Hi|]. apply wf_ps, wf_wft. assumption. }
  assert (HL : List.length (fiber_idx exf_src 1 1 [2; 4]%Z) = 4%nat) by reflexivity.
  assert (E1 : Rsuml (fiber_idx exf_src 1 1 [2; 4]%Z) (fun idx => fval (elem exf32 exf_src idx)) = 4) by (rewrite (Rsuml_ext _ _ (fun _ => 1)) by (intros idx Hi; rewrite Hx by assumption; apply fval_one); rewrite Rsuml_const, HL; cbn; lra).
  assert (E2 : Rsuml (fiber_idx exf_src 1 1 [2; 4]%Z) (fun idx => Rabs (fval (elem exf32 exf_src idx))) = 4) by (rewrite (Rsuml_ext _ _ (fun _ => 1)) by (intros idx Hi; rewrite Hx by assumption; rewrite fval_one; apply Rabs_R1); rewrite Rsuml_const, HL; cbn; lra).
  rewrite E1, E2, fval_zero, fval_one, Rmult_0_l, Rabs_R0, Rabs_R1, !Rplus_0_l, !Rmult_1_l in H.
  assert (H5 : 4 <= bpow radix2 124) by (apply Rle_trans with (bpow radix2 2); [change (bpow radix2 2) with 4; lra|apply bpow_le; lia]).
  apply H; [|lia| |left; reflexivity|exact H5|exact H5].
  - intros i. assert (K : forall l : list (list Z), (zlen (filter (fun idx => etile exf_src idx =? i)%Z l) <= zlen l)%Z) by (intros l; unfold zlen; apply inj_le; induction l as [|y l IH]; [constructor|]; cbn [filter]; destruct (etile exf_src y =? i)%Z; cbn [List.length]; lia).
    eapply Z.le_trans; [apply K|]. vm_compute. discriminate.
  - intros idx Hi. rewrite Hx by assumption. apply fin_one.
Qed.
