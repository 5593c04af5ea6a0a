(** * gemm: complete argument checks and the value computed (any scalar operations) *)
From Verif Require Import Base Spec Geometry Traits TraitsProofs Runtime Ops TensorSem ElemGeneric OneOut
  KernelsElem ElemOps Axis AccRuns Loops SliceOps SliceGeo SliceProofs SliceReduce SplitGeo MatOps MatProofs.

(** ** Specification of the operands *)

(** op(A) has groups of dimensions (x, y): stored as x ++ y, or y ++ x if transposed; the
    batch dimensions come last. *)
Definition op_dims {A} (tr : transop) (x y b : list A) : list A :=
  match tr with NoTrans => x ++ y | Trans => y ++ x end ++ b.

(** lA, lB, lC (shapes, or basetile shapes) fit C = op(A) * op(B) with [ndim] contracted and
    [batch_ndim] batch dimensions. *)
Definition gemm_dims (tA tB : transop) (lA lB lC : list Z) (ndim batch_ndim : Z) : Prop :=
  exists m k n b, zlen k = ndim /\ zlen b = batch_ndim /\
    lA = op_dims tA m k b /\ lB = op_dims tB k n b /\ lC = m ++ n ++ b.

Definition gemm_match (tA tB : transop) (A B C : tensor) (ndim batch_ndim : Z) : Prop :=
  gemm_dims tA tB (t_shape A) (t_shape B) (t_shape C) ndim batch_ndim /\
  gemm_dims tA tB (t_base A) (t_base B) (t_base C) ndim batch_ndim.

(** ** The checks *)
Definition pw_batch (lA lB lC : list Z) bt := forall i, 0 <= i < bt ->
  zn lA (zlen lA - i - 1) = zn lB (zlen lB - i - 1) /\ zn lA (zlen lA - i - 1) = zn lC (zlen lC - i - 1).
Definition pw_AB (tA tB : transop) (lA lB : list Z) nd bt := forall i, 0 <= i < nd ->
  zn lA (match tA with NoTrans => zlen lA - bt - nd + i | Trans => i end) =
  zn lB (match tB with NoTrans => i | Trans => zlen lB - bt - nd + i end).
Definition pw_AC (tA : transop) (lA lC : list Z) nd bt := forall i, 0 <= i < zlen lA - bt - nd ->
  zn lA (match tA with NoTrans => i | Trans => nd + i end) = zn lC i.
Definition pw_BC (tB : transop) (lB lC : list Z) nd bt := forall i, 0 <= i < zlen lB - bt - nd ->
  zn lB (match tB with NoTrans => nd + i | Trans => i end) = zn lC (zlen lC - zlen lB + nd + i).

Lemma sub_mid l1 l2 l3 : sub (l1 ++ l2 ++ l3) (zlen l1) (zlen l2) = l2.
Proof.
  rewrite <- (sub_all l2) at 3. apply sub_ext. intros x Hx. rewrite zn_app2 by lia.
  replace (zlen l1 + x - zlen l1) with x by lia. rewrite zn_app1 by lia. f_equal. 
Qed.
Lemma sub_at l i n x k : k = sub l i n -> 0 <= x < n -> zn l (i + x) = zn k x.
Proof. intros -> H. rewrite zn_sub by assumption. reflexivity. Qed.

Lemma dims_iff tA tB lA lB lC nd bt : 0 <= nd -> 0 <= bt -> bt + nd <= zlen lA -> bt + nd <= zlen lB ->
  zlen lA + zlen lB = zlen lC + 2 * nd + bt ->
  (pw_batch lA lB lC bt /\ pw_AB tA tB lA lB nd bt /\ pw_AC tA lA lC nd bt /\ pw_BC tB lB lC nd bt)
  <-> gemm_dims tA tB lA lB lC nd bt.
Proof.
  intros Hnd Hbt HA HB HC. split.
  - intros (Pb & PAB & PAC & PBC).
    set (a := zlen lA - bt - nd). set (c := zlen lB - bt - nd).
    set (m := sub lA (match tA with NoTrans => 0 | Trans => nd end) a).
    set (k := sub lA (match tA with NoTrans => a | Trans => 0 end) nd).
    set (n := sub lB (match tB with NoTrans => nd | Trans => 0 end) c).
    set (b := sub lA (a + nd) bt).
    exists m, k, n, b. split; [apply zlen_sub; assumption|]. split; [apply zlen_sub; assumption|].
    assert (Ek : sub lB (match tB with NoTrans => 0 | Trans => c end) nd = k).
    { unfold k. apply sub_ext. intros x Hx. specialize (PAB x Hx). symmetry.
      destruct tA, tB; unfold a, c; rewrite ?Z.add_0_l; exact PAB. }
    assert (Eb : sub lB (c + nd) bt = b).
    { unfold b. apply sub_ext. intros x Hx. destruct (Pb (bt - 1 - x) ltac:(lia)) as [E _]. symmetry.
      replace (a + nd + x) with (zlen lA - (bt - 1 - x) - 1) by lia.
      replace (c + nd + x) with (zlen lB - (bt - 1 - x) - 1) by lia. exact E. }
    split; [|split].
    + rewrite <- (sub_all lA). replace (zlen lA) with ((a + nd) + bt) by lia.
      rewrite sub_split by lia. unfold op_dims. f_equal. destruct tA.
      * rewrite sub_split by lia. reflexivity.
      * replace (a + nd) with (nd + a) by lia. rewrite sub_split by lia. reflexivity.
    + rewrite <- (sub_all lB). replace (zlen lB) with ((c + nd) + bt) by lia.
      rewrite sub_split by lia. unfold op_dims. rewrite Z.add_0_l, Eb. f_equal. destruct tB.
      * replace (c + nd) with (nd + c) by lia. rewrite sub_split by lia. rewrite Ek. reflexivity.
      * rewrite sub_split by lia. rewrite Z.add_0_l, Ek. reflexivity.
    + rewrite <- (sub_all lC). replace (zlen lC) with (a + (c + bt)) by lia.
      rewrite sub_split by lia. rewrite sub_split by lia. rewrite !Z.add_0_l. f_equal; [|f_equal].
      * unfold m. apply sub_ext. intros x Hx. symmetry. change (0 + x) with x. rewrite <- (PAC x) by exact Hx.
        destruct tA; reflexivity.
      * unfold n. apply sub_ext. intros x Hx. symmetry.
        replace (a + x) with (zlen lC - zlen lB + nd + x) by lia. rewrite <- (PBC x) by exact Hx.
        destruct tB; reflexivity.
      * unfold b. apply sub_ext. intros x Hx. destruct (Pb (bt - 1 - x) ltac:(lia)) as [_ E]. symmetry.
        replace (a + nd + x) with (zlen lA - (bt - 1 - x) - 1) by lia.
        replace (a + c + x) with (zlen lC - (bt - 1 - x) - 1) by lia. exact E.
  - intros (m & k & n & b & Hk & Hb & EA & EB & EC).
    assert (LA : zlen lA = zlen m + nd + bt) by (rewrite EA; unfold op_dims; destruct tA; rewrite !zlen_app; lia).
    assert (LB : zlen lB = zlen n + nd + bt) by (rewrite EB; unfold op_dims; destruct tB; rewrite !zlen_app; lia).
    assert (LC : zlen lC = zlen m + zlen n + bt) by (rewrite EC, !zlen_app; lia).
    pose proof (zlen_nonneg m). pose proof (zlen_nonneg n).
    assert (Xb : forall i, 0 <= i < bt -> zn lA (zlen lA - i - 1) = zn b (bt - 1 - i) /\
        zn lB (zlen lB - i - 1) = zn b (bt - 1 - i) /\ zn lC (zlen lC - i - 1) = zn b (bt - 1 - i)).
    { intros i Hi. rewrite LA, LB, LC, EA, EB, EC. unfold op_dims. split; [|split].
      - rewrite zn_app2 by (destruct tA; rewrite zlen_app; lia). f_equal. destruct tA; rewrite zlen_app; lia.
      - rewrite zn_app2 by (destruct tB; rewrite zlen_app; lia). f_equal. destruct tB; rewrite zlen_app; lia.
      - rewrite app_assoc, zn_app2 by (rewrite zlen_app; lia). f_equal. rewrite zlen_app; lia. }
    assert (XkA : forall i, 0 <= i < nd -> zn lA (match tA with NoTrans => zlen lA - bt - nd + i | Trans => i end) = zn k i).
    { intros i Hi. rewrite EA at 1. unfold op_dims. destruct tA; rewrite <- app_assoc.
      - rewrite LA. rewrite zn_app2 by lia. rewrite zn_app1 by lia. f_equal. lia.
      - apply zn_app1. lia. }
    assert (XkB : forall i, 0 <= i < nd -> zn lB (match tB with NoTrans => i | Trans => zlen lB - bt - nd + i end) = zn k i).
    { intros i Hi. rewrite EB at 1. unfold op_dims. destruct tB; rewrite <- app_assoc.
      - apply zn_app1. lia.
      - rewrite LB. rewrite zn_app2 by lia. rewrite zn_app1 by lia. f_equal. lia. }
    assert (Xm : forall i, 0 <= i < zlen m -> zn lA (match tA with NoTrans => i | Trans => nd + i end) = zn m i /\ zn lC i = zn m i).
    { intros i Hi. rewrite EA, EC. unfold op_dims. split; [|apply zn_app1; lia]. destruct tA; rewrite <- app_assoc.
      - apply zn_app1; lia.
      - rewrite zn_app2 by lia. rewrite zn_app1 by lia. f_equal. lia. }
    assert (Xn : forall i, 0 <= i < zlen n -> zn lB (match tB with NoTrans => nd + i | Trans => i end) = zn n i /\
        zn lC (zlen lC - zlen lB + nd + i) = zn n i).
    { intros i Hi. rewrite LC, LB, EB, EC. unfold op_dims. split.
      - destruct tB; rewrite <- app_assoc.
        + rewrite zn_app2 by lia. rewrite zn_app1 by lia. f_equal. lia.
        + apply zn_app1; lia.
      - rewrite zn_app2 by lia. rewrite zn_app1 by lia. f_equal. lia. }
    unfold pw_batch, pw_AB, pw_AC, pw_BC. split; [|split; [|split]].
    + intros i Hi. destruct (Xb i Hi) as (-> & -> & ->). auto.
    + intros i Hi. rewrite XkA, XkB by assumption. reflexivity.
    + intros i Hi. destruct (Xm i ltac:(lia)) as [-> ->]. reflexivity.
    + intros i Hi. destruct (Xn i ltac:(lia)) as [-> ->]. reflexivity.
Qed.

Theorem gemm_checks tA tB A B C ndim batch : wft A -> wft B -> wft C ->
  checks (gemm_match tA tB A B C ndim batch) (gemm_check tA A tB B C ndim batch).
Proof.
  intros HA HB HC. unfold gemm_check, gemm_check_ndim. rewrite !t_ndim_eq by assumption.
  pose proof (wf_len _ HA) as LA. pose proof (wf_len _ HB) as LB. pose proof (wf_len _ HC) as LC.
  set (nA := zlen (t_shape A)) in *. set (nB := zlen (t_shape B)) in *. set (nC := zlen (t_shape C)) in *.
  set (P1 := pw_batch (t_shape A) (t_shape B) (t_shape C) batch /\ pw_batch (t_base A) (t_base B) (t_base C) batch).
  set (P2 := pw_AB tA tB (t_shape A) (t_shape B) ndim batch /\ pw_AB tA tB (t_base A) (t_base B) ndim batch).
  set (P3 := pw_AC tA (t_shape A) (t_shape C) ndim batch /\ pw_AC tA (t_base A) (t_base C) ndim batch).
  set (P4 := pw_BC tB (t_shape B) (t_shape C) ndim batch /\ pw_BC tB (t_base B) (t_base C) ndim batch).
  apply (checks_iff (0 <= ndim /\ 0 <= batch /\ batch + ndim <= nA /\ batch + ndim <= nB /\
    nA + nB = nC + 2 * ndim + batch /\ P1 /\ P2 /\ P3 /\ P4)).
  { unfold gemm_match. split.
    - intros (H1 & H2 & H3 & H4 & H5 & [] & [] & [] & []).
      split; apply dims_iff; fold nA nB nC; rewrite ?LA, ?LB, ?LC; auto; tauto.
    - intros (D1 & D2). assert (0 <= ndim /\ 0 <= batch /\ batch + ndim <= nA /\ batch + ndim <= nB /\ nA + nB = nC + 2 * ndim + batch) as (H1 & H2 & H3 & H4 & H5).
      { destruct D1 as (m & k & n & b & Hk & Hb & EA & EB & EC).
        pose proof (zlen_nonneg m). pose proof (zlen_nonneg n). pose proof (zlen_nonneg k). pose proof (zlen_nonneg b).
        unfold nA, nB, nC. rewrite EA, EB, EC. unfold op_dims. destruct tA, tB; rewrite !zlen_app; lia. }
      apply dims_iff in D1 as (? & ? & ? & ?); [|assumption..]. apply dims_iff in D2 as (? & ? & ? & ?); [|rewrite ?LA, ?LB, ?LC; assumption..].
      unfold P1, P2, P3, P4. tauto. }
  apply checks_if; [intros X; apply Z.ltb_lt in X; lia|intros X; apply Z.ltb_ge in X; lia|]. intros H1.
  apply checks_if; [intros X; apply Z.ltb_lt in X; lia|intros X; apply Z.ltb_ge in X; lia|]. intros H2.
  apply checks_if; [intros X; apply Z.ltb_lt in X; lia|intros X; apply Z.ltb_ge in X; lia|]. intros H3.
  apply checks_if; [intros X; apply Z.ltb_lt in X; lia|intros X; apply Z.ltb_ge in X; lia|]. intros H4.
  apply checks_eq. intros H5.
  apply checks_seq; [|intros _; apply checks_seq; [|intros _; apply checks_seq; [|intros _]]].
  - unfold gemm_check_batch. rewrite !t_ndim_eq by assumption. fold nA nB nC.
    eapply checks_iff; [|apply (checks_for 0 batch (fun i =>
      (zn (t_shape A) (nA - i - 1) = zn (t_shape B) (nB - i - 1) /\ zn (t_base A) (nA - i - 1) = zn (t_base B) (nB - i - 1)) /\
      (zn (t_shape A) (nA - i - 1) = zn (t_shape C) (nC - i - 1) /\ zn (t_base A) (nA - i - 1) = zn (t_base C) (nC - i - 1))))].
    + unfold P1, pw_batch. rewrite LA, LB, LC. fold nA nB nC. split; [|intros [X1 X2] i Hi; specialize (X1 i Hi); specialize (X2 i Hi); tauto].
      intros X. split; intros i Hi; specialize (X i Hi); tauto.
    + intros i Hi. apply checks_seq; [|intros _]; apply check_dim_checks; auto; lia.
  - unfold gemm_check_opA_opB. rewrite !t_ndim_eq by assumption. fold nA nB nC.
    apply (checks_iff (forall i, 0 <= i < ndim ->
      zn (t_shape A) (match tA with NoTrans => nA - batch - ndim + i | Trans => i end) =
      zn (t_shape B) (match tB with NoTrans => i | Trans => nB - batch - ndim + i end) /\
      zn (t_base A) (match tA with NoTrans => nA - batch - ndim + i | Trans => i end) =
      zn (t_base B) (match tB with NoTrans => i | Trans => nB - batch - ndim + i end))).
    + unfold P2, pw_AB. rewrite LA, LB. fold nA nB. split; [|intros [X1 X2] i Hi; specialize (X1 i Hi); specialize (X2 i Hi); tauto].
      intros X. split; intros i Hi; specialize (X i Hi); tauto.
    + destruct tA, tB; apply checks_for; intros i Hi; apply check_dim_checks; auto; lia.
  - unfold gemm_check_opA_C. rewrite !t_ndim_eq by assumption. fold nA nB nC.
    apply (checks_iff (forall i, 0 <= i < nA - batch - ndim ->
      zn (t_shape A) (match tA with NoTrans => i | Trans => ndim + i end) = zn (t_shape C) i /\
      zn (t_base A) (match tA with NoTrans => i | Trans => ndim + i end) = zn (t_base C) i)).
    + unfold P3, pw_AC. rewrite LA. fold nA nB. split; [|intros [X1 X2] i Hi; specialize (X1 i Hi); specialize (X2 i Hi); tauto].
      intros X. split; intros i Hi; specialize (X i Hi); tauto.
    + destruct tA; [apply checks_for; intros i Hi; apply check_dim_checks; auto; lia|].
      eapply checks_iff; [|apply (checks_for ndim (nA - batch) (fun i => zn (t_shape A) i = zn (t_shape C) (i - ndim) /\ zn (t_base A) i = zn (t_base C) (i - ndim)));
        intros i Hi; apply check_dim_checks; auto; lia].
      split; intros X i Hi.
      * specialize (X (ndim + i) ltac:(lia)). replace (ndim + i - ndim) with i in X by lia. exact X.
      * specialize (X (i - ndim) ltac:(lia)). replace (ndim + (i - ndim)) with i in X by lia. exact X.
  - unfold gemm_check_opB_C. rewrite !t_ndim_eq by assumption. fold nA nB nC.
    apply (checks_iff (forall i, 0 <= i < nB - batch - ndim ->
      zn (t_shape B) (match tB with NoTrans => ndim + i | Trans => i end) = zn (t_shape C) (nC - nB + ndim + i) /\
      zn (t_base B) (match tB with NoTrans => ndim + i | Trans => i end) = zn (t_base C) (nC - nB + ndim + i))).
    + unfold P4, pw_BC. rewrite LB, LC. fold nA nB nC. split; [|intros [X1 X2] i Hi; specialize (X1 i Hi); specialize (X2 i Hi); tauto].
      intros X. split; intros i Hi; specialize (X i Hi); tauto.
    + destruct tB; [|apply checks_for; intros i Hi; apply check_dim_checks; auto; lia].
      eapply checks_iff; [|apply (checks_for ndim (nB - batch) (fun i => zn (t_shape B) i = zn (t_shape C) (nC - nB + i) /\ zn (t_base B) i = zn (t_base C) (nC - nB + i)));
        intros i Hi; apply check_dim_checks; auto; lia].
      split; intros X i Hi.
      * specialize (X (ndim + i) ltac:(lia)). replace (nC - nB + (ndim + i)) with (nC - nB + ndim + i) in X by lia. exact X.
      * specialize (X (i - ndim) ltac:(lia)). replace (ndim + (i - ndim)) with i in X by lia.
        replace (nC - nB + ndim + (i - ndim)) with (nC - nB + i) in X by lia. exact X.
Qed.

(** ** The kernel *)
Section K.
Context {T : Type} {O : Ops T}.
Local Notation vec := (list T).

(** alpha*x + beta*c; c is not used when beta = 0 *)
Definition gm (beta x c : T) : T := if o_eqb beta o_zero then x else o_add x (o_mul beta c).
(** position of element (i, l) of op(X), X stored with leading dimension ld *)
Definition opos (tr : transop) (ld i l : Z) : Z := match tr with NoTrans => i + l * ld | Trans => l + i * ld end.
(** dot product of row i of op(A) and column j of op(B) *)
Definition gdot (tA tB : transop) (m n k : Z) (A B : vec) (oA oB i j : Z) : T :=
  fold_left (fun t l => o_add t (o_mul (zn A (oA + opos tA (match tA with NoTrans => m | Trans => k end) i l))
                                       (zn B (oB + opos tB (match tB with NoTrans => k | Trans => n end) l j))))
    (zrange k) o_zero.

Lemma for_offsets {S} n (x y z : Z) (f : Z -> Z -> Z -> S -> res S) (s : S) : 0 <= n ->
  for_ 0 n (fun _ '(a, b, c, s) => s' <- f a b c s ;; Ok (a + x, b + y, c + z, s')) (0, 0, 0, s)
  = (s' <- for_ 0 n (fun i s => f (i * x) (i * y) (i * z) s) s ;; Ok (n * x, n * y, n * z, s')).
Proof.
  intros Hn. pattern n. apply natlike_ind; [| |assumption].
  - rewrite !for_empty by lia. reflexivity.
  - intros k Hk IH. unfold Z.succ. rewrite !for_snoc by assumption. rewrite IH.
    destruct (for_ 0 k _ s) as [s'| |]; [|reflexivity|reflexivity]. rewrite !bind_Ok. cbv beta iota.
    destruct (f (k * x) (k * y) (k * z) s'); [|reflexivity|reflexivity]. rewrite !bind_Ok. do 2 f_equal. f_equal; [f_equal|]; ring.
Qed.

Lemma opos_bound tr m n i l : 0 <= i < m -> 0 <= l < n ->
  0 <= opos tr (match tr with NoTrans => m | Trans => n end) i l < m * n.
Proof. intros. unfold opos. destruct tr; nia. Qed.

Lemma k_gemm_ok tA tB m n k batch alpha (A B : vec) beta (C : vec) :
  0 < m -> 0 < n -> 0 < k -> 0 < batch ->
  zlen A = m * k * batch -> zlen B = k * n * batch -> zlen C = m * (n * batch) ->
  k_gemm tA tB m n k batch alpha A B beta C = Ok (ztab (m * (n * batch)) (fun o =>
    let i := cz [m; n; batch] 0 o in let j := cz [m; n; batch] 1 o in let b := cz [m; n; batch] 2 o in
    gm beta (o_mul alpha (gdot tA tB m n k A B (b * (m * k)) (b * (n * k)) i j)) (zn C o))).
Proof.
  intros Hm Hn Hk Hb HA HB HC. unfold k_gemm.
  rewrite (for_offsets batch (m * k) (n * k) (m * n) (fun a b c C =>
    blas_gemm tA tB m n k alpha A a (match tA with NoTrans => m | Trans => k end) B b
      (match tB with NoTrans => k | Trans => n end) beta C c m) C) by lia.
  set (ldA := match tA with NoTrans => m | Trans => k end). set (ldB := match tB with NoTrans => k | Trans => n end).
  assert (Dot : forall b i j, 0 <= b < batch -> 0 <= i < m -> 0 <= j < n ->
    for_ 0 k (fun l temp =>
      a <- rd A (b * (m * k) + match tA with NoTrans => i + l * ldA | Trans => l + i * ldA end) ;;
      c <- rd B (b * (n * k) + match tB with NoTrans => l + j * ldB | Trans => j + l * ldB end) ;;
      Ok (o_add temp (o_mul a c))) o_zero = Ok (gdot tA tB m n k A B (b * (m * k)) (b * (n * k)) i j)).
  { intros b i j Hb' Hi Hj.
    rewrite (for_ext 0 k _ (fun l temp => Ok (o_add temp (o_mul (zn A (b * (m * k) + opos tA ldA i l)) (zn B (b * (n * k) + opos tB ldB l j)))))).
    - rewrite for_pure. rewrite Z.sub_0_r. reflexivity.
    - intros l temp Hl. pose proof (opos_bound tA m k i l Hi Hl) as B1. pose proof (opos_bound tB k n l j Hl Hj) as B2.
      fold ldA in B1. fold ldB in B2. unfold opos in B1, B2.
      rewrite !rd_ok' by nia. reflexivity. }
  rewrite (nest3 (m * (n * batch)) batch n m (cz [m; n; batch] 2) (cz [m; n; batch] 1) (cz [m; n; batch] 0)
    (fun b j i => i + m * (j + n * b))
    (fun o old => gm beta (o_mul alpha (gdot tA tB m n k A B (cz [m; n; batch] 2 o * (m * k)) (cz [m; n; batch] 2 o * (n * k))
       (cz [m; n; batch] 0 o) (cz [m; n; batch] 1 o))) old)
    _ (fun b j => for_ 0 m (fun i C =>
      temp <- for_ 0 k (fun l temp =>
        a <- rd A (b * (m * k) + match tA with NoTrans => i + l * ldA | Trans => l + i * ldA end) ;;
        c <- rd B (b * (n * k) + match tB with NoTrans => l + j * ldB | Trans => j + l * ldB end) ;;
        Ok (o_add temp (o_mul a c))) o_zero ;;
      if o_eqb beta o_zero then wr C (b * (m * n) + (i + j * m)) (o_mul alpha temp)
      else c <- rd C (b * (m * n) + (i + j * m)) ;; wr C (b * (m * n) + (i + j * m)) (o_add (o_mul alpha temp) (o_mul beta c))))
    (fun b j i C =>
      if o_eqb beta o_zero then wr C (b * (m * n) + (i + j * m)) (o_mul alpha (gdot tA tB m n k A B (b * (m * k)) (b * (n * k)) i j))
      else c <- rd C (b * (m * n) + (i + j * m)) ;; wr C (b * (m * n) + (i + j * m))
        (o_add (o_mul alpha (gdot tA tB m n k A B (b * (m * k)) (b * (n * k)) i j)) (o_mul beta c)))); try lia.
  - bnd. reflexivity.
  - intros b d Hb' Hd. reflexivity.
  - intros b j d Hb' Hj Hd. apply for_ext. intros i st Hi. rewrite Dot by assumption. bnd. reflexivity.
  - intros b j i d Hb' Hj Hi Hd. replace (b * (m * n) + (i + j * m)) with (i + m * (j + n * b)) by ring.
    destruct (cz3 m n batch i j b Hi Hj Hb') as (-> & -> & -> & Bd). unfold gm.
    destruct (o_eqb beta o_zero); [reflexivity|]. rewrite rd_ok' by lia. reflexivity.
  - intros b j i Hb' Hj Hi. destruct (cz3 m n batch i j b Hi Hj Hb') as (-> & -> & -> & Bd). auto.
  - intros o Ho. destruct (cz3_inv m n batch o Hm Hn Hb Ho) as (X1 & X2 & X3 & X4). auto.
Qed.
End K.
