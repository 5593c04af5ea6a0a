(** * Gradient of the multi-head attention function

    The function computed by the Attention layer from its inputs and weights, and its gradient
    formula: projections, masked scaled dot-product attention (AttnSpec), output projection. *)
From Coq Require Import Reals Lra FunctionalExtensionality.
From Coquelicot Require Import Coquelicot.
From Verif Require Import Base Spec Geometry Axis TensorSem MatOps MatProofs GemmProofs GemmRuns PropMat RSum AttnSpec PropFiber PropLoss CrossEntropy TapeMath VjpMath PyLinear.
Local Open Scope R_scope.
Local Close Scope Z_scope.
Local Open Scope R_scope.
Notation arr := TapeMath.arr.

(** ** Composition *)
Lemma tv_comp n m ish msh osh (D : (nat -> arr) -> Prop) (D' : (nat -> arr) -> Prop) (H : nat -> (nat -> arr) -> arr) (dH : nat -> (nat -> arr) -> arr -> nat -> arr) F dl :
  (forall k, (k < m)%nat -> tv n ish (msh k) D (H k) (dH k)) -> tv m msh osh D' F dl -> (forall vs, D vs -> D' (fun k => H k vs)) ->
  tv n ish osh D (fun vs => F (fun k => H k vs)) (fun vs gy j idx => Nsum m (fun k => dH k vs (dl (fun k => H k vs) gy k) j idx)).
Proof.
  intros HH HF HD' c c' t0 HD Hc.
  assert (Hy : forall k, exists y', (k < m)%nat -> (forall idx, inb (msh k) idx -> is_derive (fun t => H k (c t) idx) t0 (y' idx)) /\
      forall gy, dot (msh k) gy y' = Nsum n (fun j => dot (ish j) (dH k (c t0) gy j) (c' j))).
  { intros k. destruct (Compare_dec.lt_dec k m) as [Hk|Hk]; [|exists (fun _ => 0); intros; contradiction].
    destruct (HH k Hk c c' t0 HD Hc) as (y' & H1 & H2). exists y'. intros _. split; assumption. }
  assert (Hch : exists ys : nat -> arr, forall k, (k < m)%nat -> (forall idx, inb (msh k) idx -> is_derive (fun t => H k (c t) idx) t0 (ys k idx)) /\
      forall gy, dot (msh k) gy (ys k) = Nsum n (fun j => dot (ish j) (dH k (c t0) gy j) (c' j))).
  { clear - Hy. assert (G : forall p, exists ys : nat -> arr, forall k, (k < p)%nat -> (k < m)%nat -> (forall idx, inb (msh k) idx -> is_derive (fun t => H k (c t) idx) t0 (ys k idx)) /\
      forall gy, dot (msh k) gy (ys k) = Nsum n (fun j => dot (ish j) (dH k (c t0) gy j) (c' j))).
    { induction p as [|p (ys & IH)]; [exists (fun _ _ => 0); intros; lia|]. destruct (Hy p) as (y' & Hp).
      exists (fun k => if Nat.eq_dec k p then y' else ys k). intros k Hk Hm. destruct (Nat.eq_dec k p) as [->|Hn]; [apply Hp; assumption|apply IH; [lia|assumption]]. }
    destruct (G m) as (ys & HG). exists ys. intros k Hk. apply HG; assumption. }
  destruct Hch as (ys & Hys).
  destruct (HF (fun t k => H k (c t)) ys t0 (HD' _ HD)) as (y' & Y1 & Y2).
  { intros k idx Hk Hi. apply (proj1 (Hys k Hk)). assumption. }
  exists y'. split; [exact Y1|]. intros gy. rewrite Y2.
  transitivity (Nsum m (fun k => Nsum n (fun j => dot (ish j) (dH k (c t0) (dl (fun k => H k (c t0)) gy k) j) (c' j)))).
  { apply Nsum_ext. intros k Hk. apply (proj2 (Hys k Hk)). }
  unfold Nsum. rewrite Rsuml_swap. apply Rsuml_ext. intros j _.
  rewrite (dot_Rsuml (ish j) (seq 0 m) (fun k => dH k (c t0) (dl (fun k0 => H k0 (c t0)) gy k) j)). reflexivity.
Qed.

(** ** Sums over small shapes *)
Ltac posl := unfold pos; repeat (apply Forall_cons; [assumption|]); apply Forall_nil.
Lemma sum1 a f : (0 < a)%Z -> Rsuml (all_idx [a]) f = Rsum a (fun i => f [i]).
Proof. intros. rewrite Rsuml_all_cons by posl. rewrite Rsuml_all_nil. reflexivity. Qed.
Lemma sum2 a b f : (0 < a)%Z -> (0 < b)%Z -> Rsuml (all_idx [a; b]) f = Rsum b (fun j => Rsum a (fun i => f [i; j])).
Proof. intros. rewrite Rsuml_all_cons by posl. rewrite sum1 by assumption. reflexivity. Qed.
Lemma sum3 a b c f : (0 < a)%Z -> (0 < b)%Z -> (0 < c)%Z -> Rsuml (all_idx [a; b; c]) f = Rsum c (fun k => Rsum b (fun j => Rsum a (fun i => f [i; j; k]))).
Proof. intros. rewrite Rsuml_all_cons by posl. rewrite sum2 by assumption. reflexivity. Qed.
Lemma sum4 a b c d f : (0 < a)%Z -> (0 < b)%Z -> (0 < c)%Z -> (0 < d)%Z ->
  Rsuml (all_idx [a; b; c; d]) f = Rsum d (fun l => Rsum c (fun k => Rsum b (fun j => Rsum a (fun i => f [i; j; k; l])))).
Proof. intros. rewrite Rsuml_all_cons by posl. rewrite sum3 by assumption. reflexivity. Qed.
Lemma Rsum_plus a f g : Rsum a (fun x => f x + g x) = Rsum a f + Rsum a g.
Proof. apply Rsuml_plus. Qed.
Lemma Rsum_swap a b (f : Z -> Z -> R) : Rsum a (fun i => Rsum b (f i)) = Rsum b (fun j => Rsum a (fun i => f i j)).
Proof. apply Rsuml_swap. Qed.
Lemma inb1_inv a idx : inb [a] idx -> exists i, idx = [i] /\ (0 <= i < a)%Z.
Proof. intros H. inversion H as [|? i ? l Hi Hl]; subst. inversion Hl; subst. eauto. Qed.
Lemma inb2_inv a b idx : inb [a; b] idx -> exists i j, idx = [i; j] /\ (0 <= i < a)%Z /\ (0 <= j < b)%Z.
Proof. intros H. inversion H as [|? i ? l Hi Hl]; subst. apply inb1_inv in Hl as (j & -> & Hj). eauto. Qed.
Lemma inb3_inv a b c idx : inb [a; b; c] idx -> exists i j k, idx = [i; j; k] /\ (0 <= i < a)%Z /\ (0 <= j < b)%Z /\ (0 <= k < c)%Z.
Proof. intros H. inversion H as [|? i ? l Hi Hl]; subst. apply inb2_inv in Hl as (j & k & -> & Hj). exists i, j, k. tauto. Qed.
Lemma inb4_inv a b c d idx : inb [a; b; c; d] idx -> exists i j k l, idx = [i; j; k; l] /\ (0 <= i < a)%Z /\ (0 <= j < b)%Z /\ (0 <= k < c)%Z /\ (0 <= l < d)%Z.
Proof. intros H. inversion H as [|? i ? l Hi Hl]; subst. apply inb3_inv in Hl as (j & k & l' & -> & Hj). exists i, j, k, l'. tauto. Qed.
Ltac inbl := repeat (apply Forall2_cons; [assumption|]); apply Forall2_nil.

(** gather along a bijection *)
Lemma pre_bij sh p (g : arr) k i : pos sh -> inb sh i -> (forall j, inb sh j -> (p j = k <-> j = i)) -> pre sh p g k = g i.
Proof.
  intros Hp Hi Hb. unfold pre. rewrite <- (dot_delta sh g i Hp Hi). apply Rsuml_ext. intros j Hj. apply all_idx_In in Hj; [|assumption].
  specialize (Hb j Hj). destruct (list_eq_dec Z.eq_dec (p j) k), (list_eq_dec Z.eq_dec j i); tauto || ring.
Qed.

(** ** Projections *)
Section Proj.
(** input features, head size, sequence, batch, heads *)
Variables (ne h n nb nh : Z).
Hypotheses (Pe : (0 < ne)%Z) (Ph : (0 < h)%Z) (Pn : (0 < n)%Z) (Pb : (0 < nb)%Z) (Pnh : (0 < nh)%Z).
Notation sh4 := [h; n; nb; nh].
Definition proj (w x : arr) (b : option arr) : arr := fun idx =>
  Rsum ne (fun e => w [zn idx 3; zn idx 0; e] * x [e; zn idx 1; zn idx 2]) + match b with Some b => b [zn idx 0; zn idx 3] | None => 0 end.
Definition proj_dx (w gq : arr) : arr := fun k => Rsum nh (fun y => Rsum h (fun d => w [y; d; zn k 0] * gq [d; zn k 1; zn k 2; y])).
Definition proj_dw (x gq : arr) : arr := fun k => Rsum nb (fun z => Rsum n (fun i => gq [zn k 1; i; z; zn k 0] * x [zn k 2; i; z])).
Definition proj_db (gq : arr) : arr := fun k => Rsum nb (fun z => Rsum n (fun i => gq [zn k 0; i; z; zn k 1])).

(** the bias of heads: first and last coordinate *)
Lemma pre_first_last (gy : arr) d y : (0 <= d < h)%Z -> (0 <= y < nh)%Z -> pre sh4 (fun i => [zn i 0; zn i 3]) gy [d; y] = proj_db gy [d; y].
Proof.
  intros Hd Hy. unfold pre, proj_db. change (zn [d; y] 0) with d. change (zn [d; y] 1) with y.
  rewrite sum4 by assumption. rewrite (Rsum_ext nh _ (fun l => if (l =? y)%Z then Rsum nb (fun z => Rsum n (fun i => gy [d; i; z; l])) else 0)).
  * rewrite (Rsum_delta nh _ y Hy). reflexivity.
  * intros l Hl. destruct (l =? y)%Z eqn:El.
    -- apply Z.eqb_eq in El. subst l. apply Rsum_ext. intros z Hz. apply Rsum_ext. intros i Hi'.
       rewrite (Rsum_ext h _ (fun q => if (q =? d)%Z then gy [q; i; z; y] else 0)).
       ++ apply (Rsum_delta h (fun q => gy [q; i; z; y]) d Hd).
       ++ intros q Hq. change (zn [q; i; z; y] 0) with q. change (zn [q; i; z; y] 3) with y.
          destruct (list_eq_dec Z.eq_dec [q; y] [d; y]) as [Eq|Nq], (q =? d)%Z eqn:Eb; try reflexivity; exfalso.
          ** inversion Eq. apply Z.eqb_neq in Eb. contradiction.
          ** apply Z.eqb_eq in Eb. subst. congruence.
    -- apply Z.eqb_neq in El. apply Rsuml_0. intros z _. apply Rsuml_0. intros i _. apply Rsuml_0. intros q _.
       change (zn [q; i; z; l] 0) with q. change (zn [q; i; z; l] 3) with l. destruct (list_eq_dec Z.eq_dec [q; l] [d; y]) as [Eq|]; [|reflexivity]. inversion Eq. contradiction.
Qed.

Definition osel (o : option nat) (d : arr) : nat -> arr := fun j => match o with Some j0 => sel j0 d j | None => fun _ => 0 end.
Lemma proj_tv k ish D jx jw jb : (jx < k)%nat -> (jw < k)%nat -> (forall j, jb = Some j -> (j < k)%nat /\ ish j = [h; nh]) ->
  (forall j, (j < k)%nat -> pos (ish j)) -> ish jx = [ne; n; nb] -> ish jw = [nh; h; ne] ->
  tv k ish sh4 D (fun vs => proj (vs jw) (vs jx) (option_map vs jb))
    (fun vs gy j idx => sel jw (proj_dw (vs jx) gy) j idx + sel jx (proj_dx (vs jw) gy) j idx + osel jb (proj_db gy) j idx).
Proof.
  intros Hjx Hjw Hjb Pish Ex Ew.
  assert (Po : pos sh4) by posl. assert (Pt : pos [nh; h; n; nb]) by posl.
  set (p := fun idx : list Z => [zn idx 3; zn idx 0; zn idx 1; zn idx 2]).
  set (mm := fun vs : nat -> arr => matmul [nh; h] [ne] [n; nb] NoTrans NoTrans (vs jw) (vs jx)).
  set (d1 := fun (vs : nat -> arr) (gy : arr) => matmul [nh; h] [n; nb] [ne] NoTrans Trans gy (vs jx)).
  set (d2 := fun (vs : nat -> arr) (gy : arr) => matmul [ne] [nh; h] [n; nb] Trans NoTrans (vs jw) gy).
  assert (H1 : tv k ish [nh; h; n; nb] D mm (fun vs gy j idx => sel jw (d1 vs gy) j idx + sel jx (d2 vs gy) j idx)).
  { apply (tv_matmul k ish [nh; h; n; nb] D jw jx 1 NoTrans NoTrans [nh; h] [ne] [n; nb] [] mm d1 d2); try assumption; try posl; try reflexivity.
    - intros vs mi ni bi Hm Hn Hb. unfold mm. rewrite matmul_at by assumption. ring.
    - intros vs gy mi ki bi Hm Hk Hb. apply inb_nil in Hb. subst bi. unfold d1. unfold op_dims at 1. rewrite app_nil_r, matmul_0 by assumption. rewrite Rmult_1_l. apply Rsuml_ext. intros. unfold op_dims. rewrite ?app_nil_r. reflexivity.
    - intros vs gy ki ni bi Hk Hn Hb. apply inb_nil in Hb. subst bi. unfold d2. unfold op_dims at 1. rewrite app_nil_r, matmul_0 by assumption. rewrite Rmult_1_l. apply Rsuml_ext. intros. unfold op_dims. rewrite ?app_nil_r. ring. }
  assert (H2 : tv 1 (fun _ => [nh; h; n; nb]) sh4 (fun _ => True) (fun vs i => vs 0%nat (p i)) (fun _ gy => sel 0 (pre sh4 p gy))).
  { apply (tv_gather 1 (fun _ => [nh; h; n; nb]) sh4 (fun _ => True) 0 p); try assumption; [lia|]. intros i Hi. apply inb4_inv in Hi as (d & j & z & y & -> & ? & ? & ? & ?).
    unfold p. change (inb [nh; h; n; nb] [y; d; j; z]). inbl. }
  pose proof (tv_comp k 1 ish (fun _ => [nh; h; n; nb]) sh4 D (fun _ => True) (fun _ => mm) _ _ _ (fun q _ => H1) H2 (fun _ _ => I)) as H3. cbv beta in H3.
  assert (Hpre : forall gy y d i z, (0 <= y < nh)%Z -> (0 <= d < h)%Z -> (0 <= i < n)%Z -> (0 <= z < nb)%Z -> pre sh4 p gy [y; d; i; z] = gy [d; i; z; y]).
  { intros gy y d i z ? ? ? ?. apply pre_bij; [assumption|inbl|]. intros j Hj. apply inb4_inv in Hj as (d' & i' & z' & y' & -> & _).
    unfold p. change (zn [d'; i'; z'; y'] 0) with d'. change (zn [d'; i'; z'; y'] 1) with i'. change (zn [d'; i'; z'; y'] 2) with z'. change (zn [d'; i'; z'; y'] 3) with y'.
    split; intros Eq; inversion Eq; subst; reflexivity. }
  (* the product in coordinates *)
  assert (HF : forall vs idx, inb sh4 idx -> mm vs (p idx) = Rsum ne (fun e => vs jw [zn idx 3; zn idx 0; e] * vs jx [e; zn idx 1; zn idx 2])).
  { intros vs idx Hi. apply inb4_inv in Hi as (d & i & z & y & -> & ? & ? & ? & ?). unfold p, mm.
    change (zn [d; i; z; y] 0) with d. change (zn [d; i; z; y] 1) with i. change (zn [d; i; z; y] 2) with z. change (zn [d; i; z; y] 3) with y.
    change [y; d; i; z] with ([y; d] ++ [i; z] ++ []). rewrite matmul_at by inbl. rewrite sum1 by assumption. reflexivity. }
  assert (HW : forall vs gy idx, inb [nh; h; ne] idx -> d1 vs (pre sh4 p gy) idx = proj_dw (vs jx) gy idx).
  { intros vs gy idx Hi. apply inb3_inv in Hi as (y & d & e & -> & ? & ? & ?). unfold d1, proj_dw.
    change (zn [y; d; e] 0) with y. change (zn [y; d; e] 1) with d. change (zn [y; d; e] 2) with e.
    change [y; d; e] with ([y; d] ++ [e] ++ []). rewrite matmul_at by inbl. rewrite sum2 by assumption. apply Rsum_ext. intros z Hz. apply Rsum_ext. intros i Hi.
    cbn [op_dims app]. rewrite Hpre by assumption. reflexivity. }
  assert (HX : forall vs gy idx, inb [ne; n; nb] idx -> d2 vs (pre sh4 p gy) idx = proj_dx (vs jw) gy idx).
  { intros vs gy idx Hi. apply inb3_inv in Hi as (e & i & z & -> & ? & ? & ?). unfold d2, proj_dx.
    change (zn [e; i; z] 0) with e. change (zn [e; i; z] 1) with i. change (zn [e; i; z] 2) with z.
    change [e; i; z] with ([e] ++ [i; z] ++ []). rewrite matmul_at by inbl. rewrite sum2 by assumption. rewrite Rsum_swap. apply Rsum_ext. intros y Hy. apply Rsum_ext. intros d Hd.
    cbn [op_dims app]. rewrite Hpre by assumption. reflexivity. }
  assert (H4 : tv k ish sh4 D (fun vs idx => Rsum ne (fun e => vs jw [zn idx 3; zn idx 0; e] * vs jx [e; zn idx 1; zn idx 2]))
      (fun vs gy j idx => sel jw (proj_dw (vs jx) gy) j idx + sel jx (proj_dx (vs jw) gy) j idx)).
  { eapply tv_ext; [exact Pish| | |exact H3].
    - intros vs idx Hi. apply HF. assumption.
    - intros vs gy j idx _ Hj Hi. unfold Nsum. cbn [seq]. rewrite Rsuml_cons, Rsuml_nil, Rplus_0_r. unfold sel at 3 6. destruct (Nat.eq_dec 0 0) as [_|]; [|congruence].
      f_equal; unfold sel; destruct (Nat.eq_dec j _) as [->|]; try reflexivity.
      + apply HW. rewrite <- Ew. assumption.
      + apply HX. rewrite <- Ex. assumption. }
  destruct jb as [jb|].
  - destruct (Hjb jb eq_refl) as [Hjb1 Hjb2].
    assert (H5 : tv k ish sh4 D (fun vs i => vs jb [zn i 0; zn i 3]) (fun _ gy => sel jb (pre sh4 (fun i => [zn i 0; zn i 3]) gy))).
    { apply (tv_gather k ish sh4 D jb (fun i => [zn i 0; zn i 3])); try assumption; [apply Pish; assumption|]. intros i Hi. apply inb4_inv in Hi as (d & j & z & y & -> & ? & ? & ? & ?).
      rewrite Hjb2. change (inb [h; nh] [d; y]). inbl. }
    eapply tv_ext; [exact Pish| | |exact (tv_plus _ _ _ _ _ _ _ _ H4 H5)].
    + intros vs idx _. reflexivity.
    + intros vs gy j idx _ Hj Hi. f_equal. unfold osel, sel. destruct (Nat.eq_dec j jb) as [->|]; [|reflexivity]. rewrite Hjb2 in Hi.
      apply inb2_inv in Hi as (d & y & -> & Hd & Hy). f_equal. apply pre_first_last; assumption.
  - eapply tv_ext; [exact Pish| | |exact H4].
    + intros vs idx _. unfold proj. cbn [option_map]. ring.
    + intros vs gy j idx _ _ _. cbn [osel]. ring.
Qed.
End Proj.

(** ** Scaled dot-product attention of queries (0), keys (1), values (2) *)
Section Core.
Variables (h n nb nh : Z) (m : list Z -> bool).
Hypotheses (Ph : (0 < h)%Z) (Pn : (0 < n)%Z) (Pb : (0 < nb)%Z) (Pnh : (0 < nh)%Z).
Notation sh4 := [h; n; nb; nh].
Definition sdpa (q k v : arr) : arr := fun idx => attention h n m k q v (zn idx 0) (zn idx 1) (zn idx 2) (zn idx 3).
Definition sdpa_dl (q k v gy : arr) (j : nat) : arr := fun idx =>
  match j with
  | O => a_dq h n m k q v gy (zn idx 0) (zn idx 1) (zn idx 2) (zn idx 3)
  | 1%nat => a_dk h n m k q v gy (zn idx 0) (zn idx 1) (zn idx 2) (zn idx 3)
  | _ => a_dv h n m k q gy (zn idx 0) (zn idx 1) (zn idx 2) (zn idx 3)
  end.

Lemma dot4 (f g : arr) : dot sh4 f g = Rsum nh (fun y => Rsum nb (fun x => Rsum n (fun i => Rsum h (fun d => f [d; i; x; y] * g [d; i; x; y])))).
Proof. unfold dot. rewrite sum4 by assumption. reflexivity. Qed.

(** soft-max row with varying coefficients *)
Lemma row_derive2 (mk : Z -> bool) (S : R -> Z -> R) (S' : Z -> R) (P : R -> Z -> R) (P' : Z -> R) t0 :
  (forall j, (0 <= j < n)%Z -> is_derive (fun t => S t j) t0 (S' j)) ->
  (forall j, (0 <= j < n)%Z -> is_derive (fun t => P t j) t0 (P' j)) ->
  let D t := Rsum n (fun j => if mk j then exp (S t j) else 0) in
  let W t j := if mk j then exp (S t j) / D t else 0 in
  is_derive (fun t => Rsum n (fun j => P t j * W t j)) t0
    (Rsum n (fun j => P' j * W t0 j) + Rsum n (fun j => S' j * (W t0 j * (P t0 j - Rsum n (fun k => P t0 k * W t0 k))))).
Proof.
  intros HS HP D W.
  set (w' := fun j => Rsum n (fun i => S' i * (W t0 i * ((if (i =? j)%Z then 1 else 0) - Rsum n (fun k => (if (k =? j)%Z then 1 else 0) * W t0 k))))).
  assert (HW : forall j, (0 <= j < n)%Z -> is_derive (fun t => W t j) t0 (w' j)).
  { intros j Hj. apply (is_derive_ext (fun t => Rsum n (fun i => (if (i =? j)%Z then 1 else 0) * W t i))).
    - intros t. rewrite <- (Rsum_delta n (W t) j Hj). apply Rsum_ext. intros i _. destruct (i =? j)%Z; ring.
    - apply (row_derive n mk S S' (fun i => if (i =? j)%Z then 1 else 0) t0 HS). }
  assert (H1 : is_derive (fun t => Rsum n (fun j => P t j * W t j)) t0 (Rsum n (fun j => P' j * W t0 j + P t0 j * w' j))).
  { apply (is_derive_Rsum n (fun j t => P t j * W t j)). intros j Hj.
    apply (is_derive_mult (K := R_AbsRing) (fun t => P t j) (fun t => W t j)); [apply HP; assumption|apply HW; assumption|intros; apply Rmult_comm]. }
  assert (H2 : is_derive (fun t => Rsum n (fun j => P t0 j * W t j)) t0 (Rsum n (fun j => P t0 j * w' j))).
  { apply (is_derive_Rsum n (fun j t => P t0 j * W t j)). intros j Hj. apply is_derive_scal. apply HW. assumption. }
  assert (E : Rsum n (fun j => P t0 j * w' j) = Rsum n (fun j => S' j * (W t0 j * (P t0 j - Rsum n (fun k => P t0 k * W t0 k))))).
  { transitivity (Derive (fun t => Rsum n (fun j => P t0 j * W t j)) t0); [symmetry; apply is_derive_unique; exact H2|].
    apply is_derive_unique. exact (row_derive n mk S S' (P t0) t0 HS). }
  rewrite <- E, <- Rsum_plus. exact H1.
Qed.

Lemma sdpa_tv : tv 3 (fun _ => sh4) sh4 (fun _ => True) (fun vs => sdpa (vs 0%nat) (vs 1%nat) (vs 2%nat)) (fun vs gy j => sdpa_dl (vs 0%nat) (vs 1%nat) (vs 2%nat) gy j).
Proof.
  apply td_tv; [posl|]. intros c c' t0 G _ Hc.
  set (Q := fun t => c t 0%nat). set (K := fun t => c t 1%nat). set (V := fun t => c t 2%nat).
  set (Q' := c' 0%nat). set (K' := c' 1%nat). set (V' := c' 2%nat).
  assert (HQ : forall d i x y, (0 <= d < h)%Z -> (0 <= i < n)%Z -> (0 <= x < nb)%Z -> (0 <= y < nh)%Z -> is_derive (fun t => Q t [d; i; x; y]) t0 (Q' [d; i; x; y])) by (intros; apply (Hc 0%nat); [lia|inbl]).
  assert (HK : forall d i x y, (0 <= d < h)%Z -> (0 <= i < n)%Z -> (0 <= x < nb)%Z -> (0 <= y < nh)%Z -> is_derive (fun t => K t [d; i; x; y]) t0 (K' [d; i; x; y])) by (intros; apply (Hc 1%nat); [lia|inbl]).
  assert (HV : forall d i x y, (0 <= d < h)%Z -> (0 <= i < n)%Z -> (0 <= x < nb)%Z -> (0 <= y < nh)%Z -> is_derive (fun t => V t [d; i; x; y]) t0 (V' [d; i; x; y])) by (intros; apply (Hc 2%nat); [lia|inbl]).
  set (S' := fun j i x y => Rsum h (fun d => K' [d; j; x; y] * Q t0 [d; i; x; y] + K t0 [d; j; x; y] * Q' [d; i; x; y]) / sqrt (IZR h)).
  set (P' := fun j i x y => Rsum h (fun d => V' [d; j; x; y] * G [d; i; x; y])).
  assert (HS : forall j i x y, (0 <= j < n)%Z -> (0 <= i < n)%Z -> (0 <= x < nb)%Z -> (0 <= y < nh)%Z -> is_derive (fun t => ascore h (K t) (Q t) j i x y) t0 (S' j i x y)).
  { intros j i x y ? ? ? ?. unfold ascore, S', Rdiv.
    apply (is_derive_ext (fun t => / sqrt (IZR h) * Rsum h (fun d => K t [d; j; x; y] * Q t [d; i; x; y]))); [intros; apply Rmult_comm|]. rewrite (Rmult_comm _ (/ _)). apply is_derive_scal.
    apply (is_derive_Rsum h (fun d t => K t [d; j; x; y] * Q t [d; i; x; y])). intros d Hd.
    apply (is_derive_mult (K := R_AbsRing) (fun t => K t [d; j; x; y]) (fun t => Q t [d; i; x; y])); [apply HK; assumption|apply HQ; assumption|intros; apply Rmult_comm]. }
  assert (HP : forall j i x y, (0 <= j < n)%Z -> (0 <= x < nb)%Z -> (0 <= y < nh)%Z -> is_derive (fun t => a_dp h (V t) G j i x y) t0 (P' j i x y)).
  { intros j i x y ? ? ?. unfold a_dp, P'. apply (is_derive_Rsum h (fun d t => V t [d; j; x; y] * G [d; i; x; y])). intros d Hd.
    apply (is_derive_ext (fun t => G [d; i; x; y] * V t [d; j; x; y])); [intros; apply Rmult_comm|]. rewrite Rmult_comm. apply is_derive_scal. apply HV; assumption. }
  assert (E1 : forall t, dot sh4 G (sdpa (c t 0%nat) (c t 1%nat) (c t 2%nat)) =
     Rsum nh (fun y => Rsum nb (fun x => Rsum n (fun i => Rsum n (fun j => a_dp h (V t) G j i x y * aweight h n m (K t) (Q t) j i x y))))).
  { intros t. rewrite <- (aloss_rows h n nb nh m (K t) (Q t) (V t) G). rewrite dot4. reflexivity. }
  apply (is_derive_ext _ _ t0 _ (fun t => eq_sym (E1 t))).
  set (W := aweight h n m (K t0) (Q t0)). set (DS := a_ds h n m (K t0) (Q t0) (V t0) G).
  assert (E2 : Nsum 3 (fun j => dot sh4 (sdpa_dl (c t0 0%nat) (c t0 1%nat) (c t0 2%nat) G j) (c' j)) =
     Rsum nh (fun y => Rsum nb (fun x => Rsum n (fun i => Rsum n (fun j => P' j i x y * W j i x y) + Rsum n (fun j => S' j i x y * DS j i x y))))).
  { unfold Nsum. cbn [seq]. rewrite !Rsuml_cons, Rsuml_nil, Rplus_0_r. rewrite !dot4. rewrite <- !Rsum_plus. apply Rsum_ext. intros y Hy.
    rewrite <- !Rsum_plus. apply Rsum_ext. intros x Hx. fold (Q t0) (K t0) (V t0). fold Q' K' V'.
    assert (Zn : forall d i, sdpa_dl (Q t0) (K t0) (V t0) G 0 [d; i; x; y] = a_dq h n m (K t0) (Q t0) (V t0) G d i x y /\
       sdpa_dl (Q t0) (K t0) (V t0) G 1 [d; i; x; y] = a_dk h n m (K t0) (Q t0) (V t0) G d i x y /\
       sdpa_dl (Q t0) (K t0) (V t0) G 2 [d; i; x; y] = a_dv h n m (K t0) (Q t0) G d i x y) by (intros; repeat split).
    set (r := / sqrt (IZR h)).
    assert (A1 : Rsum n (fun i => Rsum h (fun d => sdpa_dl (Q t0) (K t0) (V t0) G 0 [d; i; x; y] * Q' [d; i; x; y])) =
       Rsum n (fun i => Rsum n (fun j => Rsum h (fun d => K t0 [d; j; x; y] * Q' [d; i; x; y] * r * DS j i x y)))).
    { apply Rsum_ext. intros i _. rewrite Rsum_swap. apply Rsum_ext. intros d _. rewrite (proj1 (Zn d i)). unfold a_dq, Rdiv. fold r DS. rewrite <- !Rsum_scal_r. apply Rsum_ext. intros. ring. }
    assert (A2 : Rsum n (fun i => Rsum h (fun d => sdpa_dl (Q t0) (K t0) (V t0) G 1 [d; i; x; y] * K' [d; i; x; y])) =
       Rsum n (fun i => Rsum n (fun j => Rsum h (fun d => K' [d; j; x; y] * Q t0 [d; i; x; y] * r * DS j i x y)))).
    { rewrite (Rsum_swap n n). apply Rsum_ext. intros j _. rewrite Rsum_swap. apply Rsum_ext. intros d _. rewrite (proj1 (proj2 (Zn d j))). unfold a_dk, Rdiv. fold r DS. rewrite <- !Rsum_scal_r. apply Rsum_ext. intros. ring. }
    assert (A3 : Rsum n (fun i => Rsum h (fun d => sdpa_dl (Q t0) (K t0) (V t0) G 2 [d; i; x; y] * V' [d; i; x; y])) =
       Rsum n (fun i => Rsum n (fun j => P' j i x y * W j i x y))).
    { rewrite (Rsum_swap n n). apply Rsum_ext. intros j _. unfold P'.
      transitivity (Rsum n (fun i => Rsum h (fun d => V' [d; j; x; y] * G [d; i; x; y] * W j i x y))).
      2:{ apply Rsum_ext. intros i _. apply Rsum_scal_r. }
      rewrite Rsum_swap. apply Rsum_ext. intros d _. rewrite (proj2 (proj2 (Zn d j))). unfold a_dv. fold W. rewrite <- !Rsum_scal_r. apply Rsum_ext. intros. ring. }
    rewrite A1, A2, A3. rewrite <- !Rsum_plus. apply Rsum_ext. intros i _. rewrite <- Rplus_assoc, Rplus_comm. f_equal.
    rewrite <- Rsum_plus. apply Rsum_ext. intros j _. unfold S', Rdiv. fold r. rewrite <- Rsum_plus, <- !Rsum_scal_r. apply Rsum_ext. intros. ring. }
  rewrite E2.
  apply (is_derive_Rsum nh (fun y t => Rsum nb (fun x => Rsum n (fun i => Rsum n (fun j => a_dp h (V t) G j i x y * aweight h n m (K t) (Q t) j i x y))))). intros y Hy.
  apply (is_derive_Rsum nb (fun x t => Rsum n (fun i => Rsum n (fun j => a_dp h (V t) G j i x y * aweight h n m (K t) (Q t) j i x y)))). intros x Hx.
  apply (is_derive_Rsum n (fun i t => Rsum n (fun j => a_dp h (V t) G j i x y * aweight h n m (K t) (Q t) j i x y))). intros i Hi.
  apply (row_derive2 (fun j => m [j; i]) (fun t j => ascore h (K t) (Q t) j i x y) (fun j => S' j i x y) (fun t j => a_dp h (V t) G j i x y) (fun j => P' j i x y)).
  - intros j Hj. apply HS; assumption.
  - intros j Hj. apply HP; assumption.
Qed.
End Core.

(** ** Output projection of the heads (0) by w (1), bias (2) *)
Section Out.
Variables (ne h n nb nh : Z) (hasb : bool).
Hypotheses (Pe : (0 < ne)%Z) (Ph : (0 < h)%Z) (Pn : (0 < n)%Z) (Pb : (0 < nb)%Z) (Pnh : (0 < nh)%Z).
Notation sh4 := [h; n; nb; nh].
Notation osh := [ne; n; nb].
Definition outp (b w : arr) (bo : arr) : arr := fun idx =>
  Rsum nh (fun y => Rsum h (fun d => w [zn idx 0; y; d] * b [d; zn idx 1; zn idx 2; y])) + (if hasb then bo [zn idx 0] else 0).
Definition outp_db (w gy : arr) : arr := fun k => Rsum ne (fun e => w [e; zn k 3; zn k 0] * gy [e; zn k 1; zn k 2]).
Definition outp_dw (b gy : arr) : arr := fun k => Rsum nb (fun x => Rsum n (fun i => gy [zn k 0; i; x] * b [zn k 2; i; x; zn k 1])).
Definition outp_dbo (gy : arr) : arr := fun k => Rsum nb (fun x => Rsum n (fun i => gy [zn k 0; i; x])).
Definition outp_sh (j : nat) : list Z := match j with O => sh4 | 1%nat => [ne; nh; h] | _ => [ne] end.
Definition outp_dl (b w gy : arr) (j : nat) : arr := match j with O => outp_db w gy | 1%nat => outp_dw b gy | _ => outp_dbo gy end.

Lemma pre_first (gy : arr) e : (0 <= e < ne)%Z -> pre osh (fun i => [zn i 0]) gy [e] = outp_dbo gy [e].
Proof.
  intros He. unfold pre, outp_dbo. rewrite sum3 by assumption. apply Rsum_ext. intros x _. apply Rsum_ext. intros i _.
  change (zn [e] 0) with e. rewrite <- (Rsum_delta ne (fun q => gy [q; i; x]) e He). apply Rsum_ext. intros q _. change (zn [q; i; x] 0) with q.
  destruct (list_eq_dec Z.eq_dec [q] [e]) as [Eq|Nq], (q =? e)%Z eqn:Eb; try reflexivity; exfalso.
  * inversion Eq. apply Z.eqb_neq in Eb. contradiction.
  * apply Z.eqb_eq in Eb. subst. congruence.
Qed.
Lemma outp_tv k : k = (if hasb then 3 else 2)%nat ->
  tv k outp_sh osh (fun _ => True) (fun vs => outp (vs 0%nat) (vs 1%nat) (vs 2%nat)) (fun vs gy => outp_dl (vs 0%nat) (vs 1%nat) gy).
Proof.
  intros Ek. assert (Hk : (2 <= k <= 3)%nat) by (destruct hasb; lia).
  assert (Psh : forall j, (j < k)%nat -> pos (outp_sh j)) by (intros [|[|j]] _; posl).
  set (p := fun idx : list Z => [zn idx 1; zn idx 2; zn idx 3; zn idx 0]).
  set (sht := [nh; h; n; nb]).
  assert (Pt : pos sht) by (unfold sht; posl). assert (P4 : pos sh4) by posl.
  set (d1 := fun (w gy : arr) => matmul [nh; h] [ne] [n; nb] Trans NoTrans w gy).
  set (d2 := fun (bt gy : arr) => matmul [ne] [n; nb] [nh; h] NoTrans Trans gy bt).
  set (msh := fun j => match j with O => sht | _ => [ne; nh; h] end).
  assert (H1 : tv 2 msh osh (fun _ => True) (fun vs => matmul [ne] [nh; h] [n; nb] NoTrans NoTrans (vs 1%nat) (vs 0%nat))
     (fun vs gy j idx => sel 1 (d2 (vs 0%nat) gy) j idx + sel 0 (d1 (vs 1%nat) gy) j idx)).
  { apply (tv_matmul 2 msh osh (fun _ => True) 1 0 1 NoTrans NoTrans [ne] [nh; h] [n; nb] [] _ (fun vs gy => d2 (vs 0%nat) gy) (fun vs gy => d1 (vs 1%nat) gy)); try lia; try posl; try reflexivity.
    - intros vs mi ni bi Hm Hn Hb. rewrite matmul_at by assumption. ring.
    - intros vs gy mi ki bi Hm Hk' Hb. apply inb_nil in Hb. subst bi. unfold d2. unfold op_dims at 1. rewrite app_nil_r, matmul_0 by assumption. rewrite Rmult_1_l. apply Rsuml_ext. intros. unfold op_dims. rewrite ?app_nil_r. reflexivity.
    - intros vs gy ki ni bi Hk' Hn Hb. apply inb_nil in Hb. subst bi. unfold d1. unfold op_dims at 1. rewrite app_nil_r, matmul_0 by assumption. rewrite Rmult_1_l. apply Rsuml_ext. intros. unfold op_dims. rewrite ?app_nil_r. ring. }
  set (H := fun (j : nat) (vs : nat -> arr) => match j with O => fun i => vs 0%nat (p i) | _ => fun i => vs 1%nat i end).
  set (dH := fun (j : nat) (vs : nat -> arr) (gy : arr) => match j with O => sel 0 (pre sht p gy) | _ => sel 1 (pre [ne; nh; h] (fun i => i) gy) end).
  assert (H2 : forall j, (j < 2)%nat -> tv k outp_sh (msh j) (fun _ => True) (H j) (dH j)).
  { intros [|[|j]] Hj; [| |lia].
    - apply (tv_gather k outp_sh sht (fun _ => True) 0 p); [lia|exact P4|exact Pt|]. intros i Hi. apply inb4_inv in Hi as (y & d & i' & x & -> & ? & ? & ? & ?). unfold p. change (inb sh4 [d; i'; x; y]). inbl.
    - apply (tv_gather k outp_sh [ne; nh; h] (fun _ => True) 1 (fun i => i)); [lia|posl|posl|]. intros i Hi. exact Hi. }
  pose proof (tv_comp k 2 outp_sh msh osh (fun _ => True) (fun _ => True) H dH _ _ H2 H1 (fun _ _ => I)) as H3. cbv beta in H3.
  assert (HF : forall vs idx, inb osh idx -> matmul [ne] [nh; h] [n; nb] NoTrans NoTrans (H 1%nat vs) (H 0%nat vs) idx =
     Rsum nh (fun y => Rsum h (fun d => vs 1%nat [zn idx 0; y; d] * vs 0%nat [d; zn idx 1; zn idx 2; y]))).
  { intros vs idx Hi. apply inb3_inv in Hi as (e & i & x & -> & ? & ? & ?).
    change (zn [e; i; x] 0) with e. change (zn [e; i; x] 1) with i. change (zn [e; i; x] 2) with x.
    change [e; i; x] with ([e] ++ [i; x] ++ []) at 1. rewrite matmul_at by inbl. rewrite sum2 by assumption. rewrite Rsum_swap. reflexivity. }
  assert (HB : forall vs gy idx, inb sh4 idx -> pre sht p (d1 (H 1%nat vs) gy) idx = outp_db (vs 1%nat) gy idx).
  { intros vs gy idx Hi. apply inb4_inv in Hi as (d & i & x & y & -> & ? & ? & ? & ?).
    rewrite (pre_bij sht p _ [d; i; x; y] [y; d; i; x] Pt).
    - unfold d1, outp_db. change (zn [d; i; x; y] 0) with d. change (zn [d; i; x; y] 1) with i. change (zn [d; i; x; y] 2) with x. change (zn [d; i; x; y] 3) with y.
      change [y; d; i; x] with ([y; d] ++ [i; x] ++ []). rewrite matmul_at by inbl. rewrite sum1 by assumption. reflexivity.
    - unfold sht. inbl.
    - intros j Hj. apply inb4_inv in Hj as (y' & d' & i' & x' & -> & _). unfold p.
      change (zn [y'; d'; i'; x'] 0) with y'. change (zn [y'; d'; i'; x'] 1) with d'. change (zn [y'; d'; i'; x'] 2) with i'. change (zn [y'; d'; i'; x'] 3) with x'.
      split; intros Eq; inversion Eq; subst; reflexivity. }
  assert (HW : forall vs gy idx, inb [ne; nh; h] idx -> pre [ne; nh; h] (fun i => i) (d2 (H 0%nat vs) gy) idx = outp_dw (vs 0%nat) gy idx).
  { intros vs gy idx Hi. rewrite (pre_bij [ne; nh; h] (fun i => i) _ idx idx); [|posl|assumption|intros; tauto].
    apply inb3_inv in Hi as (e & y & d & -> & ? & ? & ?). unfold d2, outp_dw. change (zn [e; y; d] 0) with e. change (zn [e; y; d] 1) with y. change (zn [e; y; d] 2) with d.
    change [e; y; d] with ([e] ++ [y; d] ++ []). rewrite matmul_at by inbl. rewrite sum2 by assumption. reflexivity. }
  assert (H4 : tv k outp_sh osh (fun _ => True) (fun vs idx => Rsum nh (fun y => Rsum h (fun d => vs 1%nat [zn idx 0; y; d] * vs 0%nat [d; zn idx 1; zn idx 2; y])))
      (fun vs gy j idx => sel 0 (outp_db (vs 1%nat) gy) j idx + sel 1 (outp_dw (vs 0%nat) gy) j idx)).
  { eapply tv_ext; [exact Psh| | |exact H3].
    - intros vs idx Hi. apply HF. assumption.
    - intros vs gy j idx _ Hj Hi. unfold Nsum. cbn [seq]. rewrite !Rsuml_cons, Rsuml_nil, Rplus_0_r. unfold dH.
      assert (Z0 : (fun idx => sel 1 (d2 (H 0%nat vs) gy) 0 idx + sel 0 (d1 (H 1%nat vs) gy) 0 idx) = d1 (H 1%nat vs) gy) by (apply functional_extensionality; intros; unfold sel; cbn; ring).
      assert (Z1 : (fun idx => sel 1 (d2 (H 0%nat vs) gy) 1 idx + sel 0 (d1 (H 1%nat vs) gy) 1 idx) = d2 (H 0%nat vs) gy) by (apply functional_extensionality; intros; unfold sel; cbn; ring).
      rewrite Z0, Z1. f_equal; unfold sel; destruct (Nat.eq_dec j _) as [->|]; try reflexivity.
      + apply HB. assumption.
      + apply HW. assumption. }
  destruct hasb eqn:Eh.
  - subst k. assert (H5 : tv 3 outp_sh osh (fun _ => True) (fun vs i => vs 2%nat [zn i 0]) (fun _ gy => sel 2 (pre osh (fun i => [zn i 0]) gy))).
    { apply (tv_gather 3 outp_sh osh (fun _ => True) 2 (fun i => [zn i 0])); [lia|posl|posl|]. intros i Hi. apply inb3_inv in Hi as (e & j & x & -> & ? & ? & ?). change (inb [ne] [e]). inbl. }
    eapply tv_ext; [exact Psh| | |exact (tv_plus _ _ _ _ _ _ _ _ H4 H5)].
    + intros vs idx _. unfold outp. rewrite Eh. reflexivity.
    + intros vs gy j idx _ Hj Hi. destruct j as [|[|[|j]]]; [| | |lia]; unfold sel; cbn; unfold outp_dl; try ring.
      apply inb1_inv in Hi as (e & -> & He). rewrite !Rplus_0_l. apply pre_first; assumption.
  - subst k. eapply tv_ext; [exact Psh| | |exact H4].
    + intros vs idx _. unfold outp. rewrite Eh. ring.
    + intros vs gy j idx _ Hj Hi. destruct j as [|[|j]]; [| |lia]; unfold sel; cbn; ring.
Qed.
End Out.

(** ** The layer: inputs x_q, x_k, x_v (0-2), w_q, w_k, w_v (3-5), w (6), biases of q, k, v and
    of the output (7-10) if there are biases *)
Section Att.
Variables (ne nek nev h n nb nh : Z) (m : list Z -> bool) (bias : bool).
Hypotheses (Pe : (0 < ne)%Z) (Pek : (0 < nek)%Z) (Pev : (0 < nev)%Z) (Ph : (0 < h)%Z) (Pn : (0 < n)%Z) (Pb : (0 < nb)%Z) (Pnh : (0 < nh)%Z).
Notation sh4 := [h; n; nb; nh].
Definition att_sh (j : nat) : list Z :=
  match j with
  | 0 => [ne; n; nb] | 1 => [nek; n; nb] | 2 => [nev; n; nb]
  | 3 => [nh; h; ne] | 4 => [nh; h; nek] | 5 => [nh; h; nev] | 6 => [ne; nh; h]
  | 7 | 8 | 9 => [h; nh] | _ => [ne]
  end%nat.
Definition att_n : nat := if bias then 11%nat else 7%nat.
Definition ob (j : nat) : option nat := if bias then Some j else None.
Definition att_q (vs : nat -> arr) : arr := proj ne (vs 3%nat) (vs 0%nat) (option_map vs (ob 7)).
Definition att_k (vs : nat -> arr) : arr := proj nek (vs 4%nat) (vs 1%nat) (option_map vs (ob 8)).
Definition att_v (vs : nat -> arr) : arr := proj nev (vs 5%nat) (vs 2%nat) (option_map vs (ob 9)).
Definition att_b (vs : nat -> arr) : arr := sdpa h n m (att_q vs) (att_k vs) (att_v vs).
Definition att_F (vs : nat -> arr) : arr := outp h nh bias (att_b vs) (vs 6%nat) (vs 10%nat).
Definition att_g (vs : nat -> arr) (gy : arr) (j : nat) : arr := sdpa_dl h n m (att_q vs) (att_k vs) (att_v vs) (outp_db ne (vs 6%nat) gy) j.
Definition att_dl (vs : nat -> arr) (gy : arr) (j : nat) : arr :=
  match j with
  | 0 => proj_dx h nh (vs 3) (att_g vs gy 0) | 1 => proj_dx h nh (vs 4) (att_g vs gy 1) | 2 => proj_dx h nh (vs 5) (att_g vs gy 2)
  | 3 => proj_dw n nb (vs 0) (att_g vs gy 0) | 4 => proj_dw n nb (vs 1) (att_g vs gy 1) | 5 => proj_dw n nb (vs 2) (att_g vs gy 2)
  | 6 => outp_dw n nb (att_b vs) gy
  | 7 => proj_db n nb (att_g vs gy 0) | 8 => proj_db n nb (att_g vs gy 1) | 9 => proj_db n nb (att_g vs gy 2)
  | _ => outp_dbo n nb gy
  end%nat.

Lemma att_tv : tv att_n att_sh [ne; n; nb] (fun _ => True) att_F att_dl.
Proof.
  assert (Hn : (7 <= att_n <= 11)%nat) by (unfold att_n; destruct bias; lia).
  assert (Psh : forall j, (j < att_n)%nat -> pos (att_sh j)).
  { intros j _. do 10 (destruct j as [|j]; [unfold att_sh; posl|]). unfold att_sh; posl. }
  assert (Hob : forall j0 j, (j0 < 11)%nat -> att_sh j0 = [h; nh] -> ob j0 = Some j -> (j < att_n)%nat /\ att_sh j = [h; nh]).
  { intros j0 j Hj Hs. unfold ob, att_n. destruct bias; intros E; inversion E; subst. split; assumption. }
  set (H := fun (k : nat) => match k with O => att_q | 1%nat => att_k | _ => att_v end).
  set (jx := fun k : nat => k). set (jw := fun k : nat => (3 + k)%nat). set (jb := fun k : nat => ob (7 + k)).
  set (dH := fun (k : nat) (vs : nat -> arr) (gy : arr) (j : nat) (idx : list Z) =>
     sel (jw k) (proj_dw n nb (vs (jx k)) gy) j idx + sel (jx k) (proj_dx h nh (vs (jw k)) gy) j idx + osel (jb k) (proj_db n nb gy) j idx).
  assert (H1 : forall k, (k < 3)%nat -> tv att_n att_sh sh4 (fun _ => True) (H k) (dH k)).
  { intros [|[|[|k]]] Hk; [| | |lia].
    - apply (proj_tv ne h n nb nh Pe Ph Pn Pb Pnh att_n att_sh (fun _ => True) 0 3 (ob 7)); try assumption; try lia; try reflexivity. intros j. apply Hob; [lia|reflexivity].
    - apply (proj_tv nek h n nb nh Pek Ph Pn Pb Pnh att_n att_sh (fun _ => True) 1 4 (ob 8)); try assumption; try lia; try reflexivity. intros j. apply Hob; [lia|reflexivity].
    - apply (proj_tv nev h n nb nh Pev Ph Pn Pb Pnh att_n att_sh (fun _ => True) 2 5 (ob 9)); try assumption; try lia; try reflexivity. intros j. apply Hob; [lia|reflexivity]. }
  pose proof (tv_comp att_n 3 att_sh (fun _ => sh4) sh4 (fun _ => True) (fun _ => True) H dH _ _ H1 (sdpa_tv h n nb nh m Ph Pn Pb Pnh) (fun _ _ => I)) as H2. cbv beta in H2.
  set (dB := fun (vs : nat -> arr) (gb : arr) (j : nat) (idx : list Z) => Nsum 3 (fun k => dH k vs (sdpa_dl h n m (att_q vs) (att_k vs) (att_v vs) gb k) j idx)).
  change (tv att_n att_sh sh4 (fun _ => True) att_b dB) in H2.
  set (k3 := if bias then 3%nat else 2%nat).
  set (H' := fun (k : nat) (vs : nat -> arr) => match k with O => att_b vs | 1%nat => fun i => vs 6%nat i | _ => fun i => vs 10%nat i end).
  set (dH' := fun (k : nat) (vs : nat -> arr) (gy : arr) => match k with O => dB vs gy | 1%nat => sel 6 (pre [ne; nh; h] (fun i => i) gy) | _ => sel 10 (pre [ne] (fun i => i) gy) end).
  assert (H3 : forall k, (k < k3)%nat -> tv att_n att_sh (outp_sh ne h n nb nh k) (fun _ => True) (H' k) (dH' k)).
  { intros [|[|[|k]]] Hk.
    - exact H2.
    - apply (tv_gather att_n att_sh [ne; nh; h] (fun _ => True) 6 (fun i => i)); [lia|unfold att_sh; posl|posl|auto].
    - unfold k3 in Hk. destruct bias eqn:Eb; [|lia]. apply (tv_gather att_n att_sh [ne] (fun _ => True) 10 (fun i => i)); [unfold att_n; rewrite Eb; lia|unfold att_sh; posl|posl|auto].
    - unfold k3 in Hk. destruct bias; lia. }
  pose proof (tv_comp att_n k3 att_sh (outp_sh ne h n nb nh) [ne; n; nb] (fun _ => True) (fun _ => True) H' dH' _ _ H3 (outp_tv ne h n nb nh bias Pe Ph Pn Pb Pnh k3 eq_refl) (fun _ _ => I)) as H4. cbv beta in H4.
  eapply tv_ext; [exact Psh| | |exact H4].
  - intros vs idx _. reflexivity.
  - intros vs gy j idx _ Hj Hi. 
    assert (Hp : forall sh, att_sh j = sh -> (pos sh) -> forall g, pre sh (fun i => i) g idx = g idx).
    { intros sh <- Hps g. apply pre_bij; [assumption|assumption|intros; tauto]. }
    assert (Esum : Nsum k3 (fun k => dH' k vs (outp_dl ne n nb (H' 0%nat vs) (H' 1%nat vs) gy k) j idx) =
       dB vs (outp_db ne (vs 6%nat) gy) j idx + (sel 6 (pre [ne; nh; h] (fun i => i) (outp_dw n nb (att_b vs) gy)) j idx +
       (if bias then sel 10 (pre [ne] (fun i => i) (outp_dbo n nb gy)) j idx else 0))).
    { unfold k3. destruct bias; unfold Nsum; cbn [seq]; rewrite !Rsuml_cons, Rsuml_nil; reflexivity || (rewrite ?Rplus_0_r; reflexivity). }
    etransitivity; [exact Esum|]. unfold dB, Nsum. cbn [seq]. rewrite !Rsuml_cons, Rsuml_nil. unfold dH, jx, jw, jb. fold (att_g vs gy 0) (att_g vs gy 1) (att_g vs gy 2).
    unfold ob, osel. revert Hj. unfold att_n. 
    do 11 (destruct j as [|j]; [destruct bias; intros Hj; try lia; unfold sel; cbn [Nat.eq_dec nat_rec nat_rect Nat.add]; 
      repeat (match goal with |- context [Nat.eq_dec ?a ?b] => destruct (Nat.eq_dec a b) as [?E|?E]; [try discriminate E|try (exfalso; apply E; reflexivity)] end); unfold att_dl; rewrite ?(Hp _ eq_refl) by posl; ring|]).
    intros Hj. destruct bias; lia.
Qed.
End Att.
