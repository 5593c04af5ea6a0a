(** * Fused attention: the codelet bodies, for any scalar operations *)
From Verif Require Import Base Spec Geometry Traits TraitsProofs Runtime Ops TensorSem ElemGeneric OneOut
  KernelsElem ElemOps Axis AccRuns Loops SliceOps SliceGeo SliceProofs SliceReduce SoftmaxOps PairGeo SoftmaxProofs
  MatOps GemmProofs LossOps LossProofs FlashOps.

Section K.
Context {T : Type} {O : Ops T}.
Local Notation vec := (list T).

(** the array of f i j b at position i + m*(j + n*b) *)
Definition tab3 (m n k : Z) (f : Z -> Z -> Z -> T) : vec :=
  ztab (m * (n * k)) (fun o => f (cz [m; n; k] 0 o) (cz [m; n; k] 1 o) (cz [m; n; k] 2 o)).
Lemma zn_tab3 m n k f i j b : 0 <= i < m -> 0 <= j < n -> 0 <= b < k -> zn (tab3 m n k f) (i + m * (j + n * b)) = f i j b.
Proof.
  intros Hi Hj Hb. destruct (cz3 m n k i j b Hi Hj Hb) as (C0 & C1 & C2 & Cb). unfold tab3. rewrite zn_ztab by assumption.
  rewrite C0, C1, C2. reflexivity.
Qed.
Lemma zlen_tab3 m n k f : 0 < m -> 0 < n -> 0 < k -> zlen (tab3 m n k f) = m * (n * k).
Proof. intros. apply zlen_ztab. nia. Qed.
Lemma tab3_ext m n k f g : 0 < m -> 0 < n -> 0 < k ->
  (forall i j b, 0 <= i < m -> 0 <= j < n -> 0 <= b < k -> f i j b = g i j b) -> tab3 m n k f = tab3 m n k g.
Proof.
  intros Hm Hn Hk H. apply ztab_ext. intros o Ho. destruct (cz3_inv m n k o Hm Hn Hk Ho) as (C0 & C1 & C2 & _). apply H; assumption.
Qed.
Lemma ztab_tab3 m n k g f : 0 < m -> 0 < n -> 0 < k ->
  (forall i j b, 0 <= i < m -> 0 <= j < n -> 0 <= b < k -> g (i + m * (j + n * b)) = f i j b) -> ztab (m * (n * k)) g = tab3 m n k f.
Proof.
  intros Hm Hn Hk H. apply ztab_ext. intros o Ho. destruct (cz3_inv m n k o Hm Hn Hk Ho) as (C0 & C1 & C2 & C).
  rewrite <- H by assumption. rewrite C. reflexivity.
Qed.

(** ** One matrix product per batch index *)
Lemma gemm_batch_ok tA tB m n k batch alpha (A B : vec) beta (C : vec) :
  0 < m -> 0 < n -> 0 < k -> 0 < batch ->
  zlen A = m * (k * batch) -> zlen B = k * (n * batch) -> zlen C = m * (n * batch) ->
  gemm_batch tA tB m n k alpha A (match tA with NoTrans => m | Trans => k end) (m * k)
    B (match tB with NoTrans => k | Trans => n end) (n * k) beta C m (m * n) batch
  = Ok (tab3 m n batch (fun i j b =>
      gm beta (o_mul alpha (gdot tA tB m n k A B (b * (m * k)) (b * (n * k)) i j)) (zn C (i + m * (j + n * b))))).
Proof.
  intros Hm Hn Hk Hb HA HB HC.
  change (gemm_batch tA tB m n k alpha A (match tA with NoTrans => m | Trans => k end) (m * k)
    B (match tB with NoTrans => k | Trans => n end) (n * k) beta C m (m * n) batch) with (k_gemm tA tB m n k batch alpha A B beta C).
  rewrite k_gemm_ok by (assumption || lia). f_equal. apply ztab_tab3; try assumption. intros i j b Hi Hj Hb'.
  destruct (cz3 m n batch i j b Hi Hj Hb') as (C0 & C1 & C2 & _). cbv zeta. rewrite C0, C1, C2. reflexivity.
Qed.

Section S.
Variables (st h B : Z).
Hypotheses (Hst : 0 < st) (Hh : 0 < h) (HB : 0 < B).
Hypothesis zz : o_eqb o_zero o_zero = true.

(** column c of a matrix of height h *)
Definition col (X : vec) (c d : Z) : T := zn X (d + h * c).
Definition dot (n : Z) (f g : Z -> T) : T := fold_left (fun t l => o_add t (o_mul (f l) (g l))) (zrange n) o_zero.
Lemma dot_ext n f f' g g' : (forall l, 0 <= l < n -> f l = f' l) -> (forall l, 0 <= l < n -> g l = g' l) -> dot n f g = dot n f' g'.
Proof. intros H1 H2. unfold dot. apply fold_left_ext. intros a l Hl. apply zrange_In in Hl. rewrite H1, H2 by assumption. reflexivity. Qed.

Lemma gemm_tn alpha (A C D : vec) : zlen A = h * (st * B) -> zlen C = h * (st * B) -> zlen D = st * (st * B) ->
  gemm_batch Trans NoTrans st st h alpha A h (h * st) C h (h * st) o_zero D st (st * st) B
  = Ok (tab3 st st B (fun l q b => o_mul alpha (dot h (col A (l + st * b)) (col C (q + st * b))))).
Proof.
  intros HA HC HD. rewrite (Z.mul_comm h st).
  rewrite (gemm_batch_ok Trans NoTrans st st h B) by (assumption || lia). f_equal. apply tab3_ext; try assumption.
  intros i j b Hi Hj Hb. unfold gm. rewrite zz. f_equal. unfold gdot, dot, col, opos. apply fold_left_ext. intros a d _. do 3 f_equal; ring.
Qed.
Lemma gemm_nn alpha (A P D : vec) : o_eqb o_one o_zero = false ->
  zlen A = h * (st * B) -> zlen P = st * (st * B) -> zlen D = h * (st * B) ->
  gemm_batch NoTrans NoTrans h st st alpha A h (h * st) P st (st * st) o_one D h (h * st) B
  = Ok (tab3 h st B (fun d q b => gm o_one (o_mul alpha (dot st (fun l => zn A (d + h * (l + st * b))) (fun l => zn P (l + st * (q + st * b)))))
                                    (zn D (d + h * (q + st * b))))).
Proof.
  intros oz HA HC HD. rewrite (gemm_batch_ok NoTrans NoTrans h st st B) by (assumption || lia). f_equal. apply tab3_ext; try assumption.
  intros i j b Hi Hj Hb. f_equal. f_equal. unfold gdot, dot, opos. apply fold_left_ext. intros a d _. do 3 f_equal; ring.
Qed.
Lemma gemm_nt alpha (A P D : vec) : o_eqb o_one o_zero = false ->
  zlen A = h * (st * B) -> zlen P = st * (st * B) -> zlen D = h * (st * B) ->
  gemm_batch NoTrans Trans h st st alpha A h (h * st) P st (st * st) o_one D h (h * st) B
  = Ok (tab3 h st B (fun d l b => gm o_one (o_mul alpha (dot st (fun q => zn A (d + h * (q + st * b))) (fun q => zn P (l + st * (q + st * b)))))
                                    (zn D (d + h * (l + st * b))))).
Proof.
  intros oz HA HC HD. rewrite (gemm_batch_ok NoTrans Trans h st st B) by (assumption || lia). f_equal. apply tab3_ext; try assumption.
  intros i j b Hi Hj Hb. f_equal. f_equal. unfold gdot, dot, opos. apply fold_left_ext. intros a d _. do 3 f_equal; ring.
Qed.

Lemma mask_ok (mask : list bool) val (D : vec) : zlen mask = st * st -> zlen D = st * (st * B) ->
  k_mask_scalar (st * st) B mask val D
  = Ok (tab3 st st B (fun l q b => if zn mask (l + st * q) then zn D (l + st * (q + st * b)) else val)).
Proof.
  intros Hm HD. rewrite k_mask_scalar_ok by (assumption || nia). f_equal. rewrite <- Z.mul_assoc. apply ztab_tab3; try assumption.
  intros l q b Hl Hq Hb. assert (Hlq : 0 <= l + st * q < st * st) by nia.
  destruct (cz2 (st * st) B (l + st * q) b Hlq Hb) as (C0 & _ & _).
  replace (l + st * (q + st * b)) with (l + st * q + st * st * b) by ring. rewrite C0. reflexivity.
Qed.

(** score of the key l for the query q, batch index b *)
Definition ksc (K Q : vec) (mask : list bool) (l q b : Z) : T :=
  if zn mask (l + st * q) then o_mul (flash_scale h) (dot h (col K (l + st * b)) (col Q (q + st * b))) else o_ninf.

Lemma flash_scores_ok (K Q : vec) (mask : list bool) (tmp : vec) :
  zlen K = h * (st * B) -> zlen Q = h * (st * B) -> zlen mask = st * st -> zlen tmp = st * (st * B) ->
  flash_scores st h B K Q mask tmp = Ok (tab3 st st B (ksc K Q mask)).
Proof.
  intros HK HQ HM HT. unfold flash_scores. cbv zeta. rewrite gemm_tn by assumption. bnd.
  rewrite mask_ok by (auto using zlen_tab3). f_equal. apply tab3_ext; try assumption. intros l q b Hl Hq Hb.
  rewrite zn_tab3 by assumption. reflexivity.
Qed.

Lemma cz1 n c : 0 <= c < n -> cz [1; n] 0 c = 0 /\ cz [1; n] 1 c = c.
Proof. intros H. destruct (cz2 1 n 0 c) as (A0 & A1 & _); [lia|assumption|]. replace (0 + 1 * c) with c in * by ring. auto. Qed.

Lemma flash_maxsumexp_ok (K Q : vec) (mask : list bool) (ms tmp : vec) :
  zlen K = h * (st * B) -> zlen Q = h * (st * B) -> zlen mask = st * st -> zlen tmp = st * (st * B) -> zlen ms = 2 * (st * B) ->
  exists tmp', flash_maxsumexp_cpu st h B [BF K; BF Q; BB mask; BF ms; BF tmp] =
    Ok [BF K; BF Q; BB mask; BF (ptab (st * B) (fun c => mse_upd (mse st (fun l => ksc K Q mask l (c mod st) (c / st))) (pr ms c))); BF tmp'].
Proof.
  intros HK HQ HM HT HS. eexists. unfold flash_maxsumexp_cpu. rewrite flash_scores_ok by assumption. bnd.
  rewrite k_maxsumexp_ok; [|lia|nia|assumption|rewrite zlen_tab3 by assumption; ring|rewrite HS; ring].
  rewrite bind_Ok. do 5 f_equal. rewrite Z.mul_1_l. f_equal. apply ztab_ext. intros o Ho.
  assert (Hc : 0 <= o / 2 < st * B) by (split; [apply Z.div_pos; lia|apply Z.div_lt_upper_bound; lia]).
  set (c := o / 2) in *. destruct (cz1 (st * B) c Hc) as [C0 C1]. rewrite C0, C1.
  rewrite (mse_ext st _ (fun l => ksc K Q mask l (c mod st) (c / st))); [reflexivity|assumption|]. intros l Hl.
  assert (Hq : 0 <= c mod st < st) by (apply Z.mod_pos_bound; assumption).
  assert (Hb : 0 <= c / st < B) by (split; [apply Z.div_pos; lia|apply Z.div_lt_upper_bound; lia]).
  rewrite <- (zn_tab3 st st B (ksc K Q mask) l (c mod st) (c / st)) by assumption. f_equal.
  rewrite (Z.div_mod c st) at 1 by lia. ring.
Qed.

(** probability of the key l for the query q *)
Definition kpr (K Q : vec) (mask : list bool) (ms : vec) (l q b : Z) : T := smax o_one (pr ms (q + st * b)) (ksc K Q mask l q b).
Lemma flash_probs_ok (K Q : vec) (mask : list bool) (ms tmp : vec) :
  zlen K = h * (st * B) -> zlen Q = h * (st * B) -> zlen mask = st * st -> zlen tmp = st * (st * B) -> zlen ms = 2 * (st * B) ->
  flash_probs st h B K Q mask ms tmp = Ok (tab3 st st B (kpr K Q mask ms)).
Proof.
  intros HK HQ HM HT HS. unfold flash_probs. rewrite flash_scores_ok by assumption. bnd.
  rewrite k_softmax_inplace_ok; [|lia|nia|assumption|rewrite HS; ring|rewrite zlen_tab3 by assumption; ring].
  f_equal. rewrite Z.mul_1_l. apply ztab_tab3; try assumption. intros l q b Hl Hq Hb.
  assert (Hqb : 0 <= q + st * b < st * B) by nia. assert (H0 : 0 <= 0 < 1) by lia.
  destruct (cz3 1 st (st * B) 0 l (q + st * b) H0 Hl Hqb) as (C0 & _ & C2 & _).
  replace (0 + 1 * (l + st * (q + st * b))) with (l + st * (q + st * b)) in * by ring. rewrite C0, C2.
  rewrite zn_tab3 by assumption. unfold kpr. f_equal. f_equal. ring.
Qed.

Lemma flash_softmax_gemm_ok (K Q : vec) (mask : list bool) (ms V A tmp : vec) : o_eqb o_one o_zero = false ->
  zlen K = h * (st * B) -> zlen Q = h * (st * B) -> zlen mask = st * st -> zlen tmp = st * (st * B) -> zlen ms = 2 * (st * B) ->
  zlen V = h * (st * B) -> zlen A = h * (st * B) ->
  exists tmp', flash_softmax_gemm_cpu st h B [BF K; BF Q; BB mask; BF ms; BF V; BF A; BF tmp] =
    Ok [BF K; BF Q; BB mask; BF ms; BF V;
        BF (tab3 h st B (fun d q b => gm o_one (o_mul o_one (dot st (fun l => zn V (d + h * (l + st * b))) (fun l => kpr K Q mask ms l q b)))
                                        (zn A (d + h * (q + st * b))))); BF tmp'].
Proof.
  intros oz HK HQ HM HT HS HV HA. eexists. unfold flash_softmax_gemm_cpu. rewrite flash_probs_ok by assumption. bnd. cbv zeta.
  rewrite gemm_nn by (auto using zlen_tab3). rewrite bind_Ok. do 7 f_equal. f_equal. apply tab3_ext; try assumption.
  intros d q b Hd Hq Hb. f_equal. f_equal. apply dot_ext; [reflexivity|]. intros l Hl. apply zn_tab3; assumption.
Qed.

(** ** Backward *)
(** gradient of the probability: sum over d of V[d;l] dA[d;q] *)
Definition kdp (V dA : vec) (l q b : Z) : T := o_mul o_one (dot h (col V (l + st * b)) (col dA (q + st * b))).

Lemma flash_bwd_sumprod_ok (K Q : vec) (mask : list bool) (ms dA V dV sp tmp grad : vec) : o_eqb o_one o_zero = false ->
  zlen K = h * (st * B) -> zlen Q = h * (st * B) -> zlen mask = st * st -> zlen tmp = st * (st * B) -> zlen ms = 2 * (st * B) ->
  zlen V = h * (st * B) -> zlen dA = h * (st * B) -> zlen dV = h * (st * B) -> zlen sp = st * B -> zlen grad = st * (st * B) ->
  exists tmp' grad', flash_bwd_sumprod_cpu st h B [BF K; BF Q; BB mask; BF ms; BF dA; BF V; BF dV; BF sp; BF tmp; BF grad] =
    Ok [BF K; BF Q; BB mask; BF ms; BF dA; BF V;
        BF (tab3 h st B (fun d l b => gm o_one (o_mul o_one (dot st (fun q => zn dA (d + h * (q + st * b))) (fun q => kpr K Q mask ms l q b)))
                                        (zn dV (d + h * (l + st * b)))));
        BF (ztab (st * B) (fun c => kres o_one o_one (ksum st (fun l => o_mul (kdp V dA l (c mod st) (c / st)) (kpr K Q mask ms l (c mod st) (c / st)))) (zn sp c)));
        BF tmp'; BF grad'].
Proof.
  intros oz HK HQ HM HT HS HV HA HdV Hsp Hg. eexists _, _. unfold flash_bwd_sumprod_cpu. rewrite flash_probs_ok by assumption. bnd. cbv zeta.
  rewrite gemm_nt by (auto using zlen_tab3). rewrite bind_Ok. rewrite gemm_tn by assumption. rewrite bind_Ok.
  rewrite k_sumprod_slice_ok; [|lia|nia|assumption|rewrite zlen_tab3 by assumption; ring|rewrite zlen_tab3 by assumption; ring|lia].
  rewrite bind_Ok. rewrite Z.mul_1_l.
  match goal with |- Ok [_; _; _; _; _; _; BF ?a; BF ?b; _; _] = Ok [_; _; _; _; _; _; BF ?c; BF ?d; _; _] =>
    assert (E1 : a = c); [|assert (E2 : b = d); [|rewrite E1, E2; reflexivity]] end.
  - apply tab3_ext; try assumption. intros d l b Hd Hl Hb. f_equal. f_equal. apply dot_ext; [reflexivity|]. intros q Hq. apply zn_tab3; assumption.
  - apply ztab_ext. intros c Hc. destruct (cz1 (st * B) c Hc) as [C0 C1]. rewrite C0, C1. f_equal. apply ksum_ext. intros l Hl.
    assert (Hq : 0 <= c mod st < st) by (apply Z.mod_pos_bound; assumption).
    assert (Hb : 0 <= c / st < B) by (split; [apply Z.div_pos; lia|apply Z.div_lt_upper_bound; lia]).
    replace (0 + 1 * (l + st * c)) with (l + st * (c mod st + st * (c / st))) by (rewrite (Z.div_mod c st) at 3 by lia; ring).
    rewrite !zn_tab3 by assumption. reflexivity.
Qed.

(** gradient of the score *)
Definition kds (K Q : vec) (mask : list bool) (ms dA V sp : vec) (l q b : Z) : T :=
  if zn mask (l + st * q) then
    o_mul (bc o_one (o_mul (o_neg o_one) (zn sp (q + st * b))) (kdp V dA l q b)) (kpr K Q mask ms l q b)
  else o_zero.

Lemma flash_bwd_dq_dk_ok (K Q : vec) (mask : list bool) (ms dA V sp dQ dK tmp grad : vec) : o_eqb o_one o_zero = false ->
  zlen K = h * (st * B) -> zlen Q = h * (st * B) -> zlen mask = st * st -> zlen tmp = st * (st * B) -> zlen ms = 2 * (st * B) ->
  zlen V = h * (st * B) -> zlen dA = h * (st * B) -> zlen dQ = h * (st * B) -> zlen dK = h * (st * B) -> zlen sp = st * B -> zlen grad = st * (st * B) ->
  exists tmp' grad', flash_bwd_dq_dk_cpu st h B [BF K; BF Q; BB mask; BF ms; BF dA; BF V; BF sp; BF dQ; BF dK; BF tmp; BF grad] =
    Ok [BF K; BF Q; BB mask; BF ms; BF dA; BF V; BF sp;
        BF (tab3 h st B (fun d q b => gm o_one (o_mul (flash_scale h) (dot st (fun l => zn K (d + h * (l + st * b))) (fun l => kds K Q mask ms dA V sp l q b)))
                                        (zn dQ (d + h * (q + st * b)))));
        BF (tab3 h st B (fun d l b => gm o_one (o_mul (flash_scale h) (dot st (fun q => zn Q (d + h * (q + st * b))) (fun q => kds K Q mask ms dA V sp l q b)))
                                        (zn dK (d + h * (l + st * b)))));
        BF tmp'; BF grad'].
Proof.
  intros oz HK HQ HM HT HS HV HA HdQ HdK Hsp Hg. eexists _, _. unfold flash_bwd_dq_dk_cpu. rewrite flash_probs_ok by assumption. bnd. cbv zeta.
  rewrite gemm_tn by assumption. rewrite bind_Ok.
  set (g1 := tab3 st st B (kdp V dA)).
  change (tab3 st st B (fun l q b => o_mul o_one (dot h (col V (l + st * b)) (col dA (q + st * b))))) with g1.
  assert (L1 : zlen g1 = st * (st * B)) by (apply zlen_tab3; assumption).
  rewrite k_add_slice_ok; [|lia|nia|assumption|lia|rewrite L1; ring]. rewrite bind_Ok. rewrite Z.mul_1_l.
  rewrite (ztab_tab3 st st B _ (fun l q b => bc o_one (o_mul (o_neg o_one) (zn sp (q + st * b))) (kdp V dA l q b))); try assumption.
  2:{ intros l q b Hl Hq Hb. assert (Hqb : 0 <= q + st * b < st * B) by nia. assert (H0 : 0 <= 0 < 1) by lia.
      destruct (cz3 1 st (st * B) 0 l (q + st * b) H0 Hl Hqb) as (C0 & _ & C2 & _).
      replace (0 + 1 * (l + st * (q + st * b))) with (l + st * (q + st * b)) in * by ring. rewrite C0, C2.
      unfold g1. rewrite zn_tab3 by assumption. replace (0 + 1 * (q + st * b)) with (q + st * b) by ring. reflexivity. }
  set (g2 := tab3 st st B (fun l q b => bc o_one (o_mul (o_neg o_one) (zn sp (q + st * b))) (kdp V dA l q b))).
  assert (L2 : zlen g2 = st * (st * B)) by (apply zlen_tab3; assumption).
  assert (LP : zlen (tab3 st st B (kpr K Q mask ms)) = st * (st * B)) by (apply zlen_tab3; assumption).
  assert (EP : k_prod (st * st * B) (tab3 st st B (kpr K Q mask ms)) g2
    = Ok (tab3 st st B (fun l q b => o_mul (bc o_one (o_mul (o_neg o_one) (zn sp (q + st * b))) (kdp V dA l q b)) (kpr K Q mask ms l q b)))).
  { rewrite <- Z.mul_assoc. unfold k_prod. rewrite (map_loop _ (fun i v => o_mul v (zn (tab3 st st B (kpr K Q mask ms)) i))); [|assumption|].
    - f_equal. apply ztab_tab3; try assumption. intros l q b Hl Hq Hb. unfold g2. rewrite !zn_tab3 by assumption. reflexivity.
    - intros i d Hi Hd. rewrite !rd_ok' by lia. reflexivity. }
  rewrite EP, bind_Ok. rewrite mask_ok by (auto using zlen_tab3). rewrite bind_Ok.
  rewrite (tab3_ext st st B _ (kds K Q mask ms dA V sp)); try assumption.
  2:{ intros l q b Hl Hq Hb. rewrite zn_tab3 by assumption. reflexivity. }
  rewrite gemm_nn by (auto using zlen_tab3). rewrite bind_Ok. rewrite gemm_nt by (auto using zlen_tab3). rewrite bind_Ok.
  match goal with |- Ok [_; _; _; _; _; _; _; BF ?a; BF ?b; _; _] = Ok [_; _; _; _; _; _; _; BF ?c; BF ?d; _; _] =>
    assert (E1 : a = c); [|assert (E2 : b = d); [|rewrite E1, E2; reflexivity]] end.
  - apply tab3_ext; try assumption. intros d q b Hd Hq Hb. f_equal. f_equal. apply dot_ext; [reflexivity|]. intros l Hl. apply zn_tab3; assumption.
  - apply tab3_ext; try assumption. intros d l b Hd Hl Hb. f_equal. f_equal. apply dot_ext; [reflexivity|]. intros q Hq. apply zn_tab3; assumption.
Qed.
End S.
End K.
