(** * C40: the compensated summation of the kernels is exact over the reals *)
From Coq Require Import Reals Lra Lia.
From Verif Require Import Base Spec Geometry Traits TraitsProofs Runtime Ops TensorSem
  Axis Loops SliceOps SliceProofs RealOps RSum PropSlice FiberOps FiberProofs PropFiber LossOps LossProofs TotalSum.
Local Open Scope R_scope.

(** Buffers are column-major: element (i1, l, i2) of an m x k x n array is at i1 + m (l + k i2). *)
Definition at3 (m k : Z) (v : list R) (i l j : Z) : R := zn v (i + m * (l + k * j))%Z.
Definition at2 (m : Z) (v : list R) (i j : Z) : R := zn v (i + m * j)%Z.

Lemma at2_lt (m n i j : Z) : (0 <= i < m -> 0 <= j < n -> 0 <= i + m * j < m * n)%Z.
Proof. nia. Qed.

Theorem C40_sum_slice (m n k : Z) (alpha beta : R) (src dst : list R) : (0 < k)%Z ->
  (0 < m)%Z -> (0 < n)%Z -> zlen src = (m * (k * n))%Z -> zlen dst = (m * n)%Z ->
  exists out, k_sum_slice m n k alpha src beta dst = Ok out /\ zlen out = (m * n)%Z /\
    forall i j, (0 <= i < m)%Z -> (0 <= j < n)%Z -> at2 m out i j = beta * at2 m dst i j + alpha * Rsum k (fun l => at3 m k src i l j).
Proof.
  intros Hk Hm Hn Hs Hd. eexists. split; [apply k_sum_slice_ok; assumption|]. split; [apply zlen_ztab; nia|].
  intros i j Hi Hj. unfold at2, at3. rewrite zn_ztab by (apply at2_lt; assumption). destruct (cz2 m n i j Hi Hj) as (E1 & E2 & _). rewrite E1, E2, ksum_R, kres_R by lia. reflexivity.
Qed.
Theorem C40_sumprod_slice (m n k : Z) (alpha beta : R) (src1 src2 dst : list R) : (0 < k)%Z -> (0 < m)%Z -> (0 < n)%Z ->
  zlen src1 = (m * (k * n))%Z -> zlen src2 = (m * (k * n))%Z -> zlen dst = (m * n)%Z ->
  exists out, k_sumprod_slice m n k alpha src1 src2 beta dst = Ok out /\ zlen out = (m * n)%Z /\
    forall i j, (0 <= i < m)%Z -> (0 <= j < n)%Z ->
      at2 m out i j = beta * at2 m dst i j + alpha * Rsum k (fun l => at3 m k src1 i l j * at3 m k src2 i l j).
Proof.
  intros Hk Hm Hn Hs Hs2 Hd. eexists. split; [apply k_sumprod_slice_ok; assumption|]. split; [apply zlen_ztab; nia|].
  intros i j Hi Hj. unfold at2, at3. rewrite zn_ztab by (apply at2_lt; assumption). destruct (cz2 m n i j Hi Hj) as (E1 & E2 & _). rewrite E1, E2, ksum_R, kres_R by lia. reflexivity.
Qed.

(** The source is m x k x n x b, the destination k x b. *)
Theorem C40_sum_fiber (m n k b : Z) (alpha beta : R) (src dst : list R) : (0 < m)%Z -> (0 < n)%Z -> (0 < k)%Z -> (0 < b)%Z ->
  zlen src = (m * (k * (n * b)))%Z -> zlen dst = (k * b)%Z ->
  exists out, k_sum_fiber m n k b alpha src beta dst = Ok out /\ zlen out = (k * b)%Z /\
    forall l p, (0 <= l < k)%Z -> (0 <= p < b)%Z ->
      at2 k out l p = beta * at2 k dst l p + alpha * Rsum n (fun j => Rsum m (fun i => at3 m k src i l (j + n * p))).
Proof.
  intros Hm Hn Hk Hb Hs Hd. eexists. split; [apply k_sum_fiber_ok; assumption|]. split; [apply zlen_ztab; nia|].
  intros i j Hi Hj. unfold at2, at3. rewrite zn_ztab by (apply at2_lt; assumption). destruct (cz2 k b i j Hi Hj) as (E1 & E2 & _). rewrite E1, E2, ksum2_R, fres_R. reflexivity.
Qed.

(** log-sum-exp minus the score of the label, summed over the outputs and scaled. *)
Theorem C40_total_sum_accum (alpha : R) (nl no : Z) (lse src : list R) (labels : list Z) (v : R) : (0 < nl)%Z -> (0 <= no)%Z ->
  zlen lse = no -> zlen labels = no -> zlen src = (nl * no)%Z -> (forall i, (0 <= i < no)%Z -> (0 <= zn labels i < nl)%Z) ->
  k_total_sum_accum alpha nl no lse src labels [v] = Ok [v + alpha * Rsum no (fun i => zn lse i - at2 nl src (zn labels i) i)].
Proof.
  intros Hl Ho H1 H2 H3 H4. rewrite k_total_sum_ok by assumption. rewrite ts_R by assumption. unfold ts_val, at2. cbn. do 2 f_equal. lra.
Qed.

Example C40_case : exists out, k_sum_slice 1 2 3 2 [1; 2; 3; 4; 5; 6] (-1) [10; 20] = Ok out /\ at2 1 out 0 0 = 2 /\ at2 1 out 0 1 = 10.
Proof.
  destruct (C40_sum_slice 1 2 3 2 (-1) [1; 2; 3; 4; 5; 6] [10; 20]) as (out & E & _ & H); try reflexivity; try lia.
  exists out. split; [assumption|]. rewrite !H by lia. unfold at2, at3, Rsum, Rsuml. change (zrange 3) with [0%Z; 1%Z; 2%Z]. lazy -[Rplus Rmult Ropp IZR]. lra.
Qed.
