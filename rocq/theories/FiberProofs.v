(** * Proofs about the fiber operations, for any scalar operations *)
From Verif Require Import Base Spec Geometry Traits TraitsProofs Runtime Ops TensorSem ElemGeneric OneOut Concrete
  KernelsElem ElemOps Axis AccRuns Loops SliceOps SliceGeo SliceProofs SliceReduce FiberOps FiberGeo.

Section K.
Context {T : Type} {O : Ops T}.
Local Notation vec := (list T).

(** *** Kernels *)
Lemma k_add_fiber_ok m n k b alpha src beta dst :
  0 < m -> 0 < n -> 0 < k -> 0 < b -> zlen src = k * b -> zlen dst = m * (k * (n * b)) ->
  k_add_fiber m n k b alpha src beta dst = Ok (ztab (m * (k * (n * b))) (fun j =>
    bc beta (o_mul alpha (zn src (cz [m; k; n; b] 1 j + k * cz [m; k; n; b] 3 j))) (zn dst j))).
Proof.
  intros Hm Hn Hk Hb Hs Hd. unfold k_add_fiber. cbv zeta.
  apply (nest4 (m * (k * (n * b))) b k n m (cz [m; k; n; b] 3) (cz [m; k; n; b] 1) (cz [m; k; n; b] 2) (cz [m; k; n; b] 0)
    (fun p l j i => i + m * (l + k * (j + n * p)))
    (fun j old => bc beta (o_mul alpha (zn src (cz [m; k; n; b] 1 j + k * cz [m; k; n; b] 3 j))) old)
    _ (fun p l d => bind (rd src (l + p * k)) (fun x => for_ 0 n (fun j d =>
         if o_eqb beta o_zero then for_ 0 m (fun i d => wr d (((j + p * n) * k + l) * m + i) (o_mul alpha x)) d
         else for_ 0 m (fun i d => v <- rd d (((j + p * n) * k + l) * m + i) ;;
                wr d (((j + p * n) * k + l) * m + i) (o_add (o_mul beta v) (o_mul alpha x))) d) d))
    (fun p l j d => if o_eqb beta o_zero then for_ 0 m (fun i d => wr d (((j + p * n) * k + l) * m + i) (o_mul alpha (zn src (l + k * p)))) d
         else for_ 0 m (fun i d => v <- rd d (((j + p * n) * k + l) * m + i) ;;
                wr d (((j + p * n) * k + l) * m + i) (o_add (o_mul beta v) (o_mul alpha (zn src (l + k * p))))) d)
    (fun p l j i d => if o_eqb beta o_zero then wr d (((j + p * n) * k + l) * m + i) (o_mul alpha (zn src (l + k * p)))
         else v <- rd d (((j + p * n) * k + l) * m + i) ;;
                wr d (((j + p * n) * k + l) * m + i) (o_add (o_mul beta v) (o_mul alpha (zn src (l + k * p)))))); try lia.
  - reflexivity.
  - intros p l d Hp Hl Hld. destruct (cz2 k b l p Hl Hp) as (_ & _ & Cb). replace (l + p * k) with (l + k * p) by ring.
    rewrite rd_ok' by lia. reflexivity.
  - intros p l j d Hp Hl Hj Hld. apply bool_for.
  - intros p l j i d Hp Hl Hj Hi Hld. destruct (cz4 m k n b i l j p Hi Hl Hj Hp) as (C0 & C1 & C2 & C3 & Cb).
    replace (((j + p * n) * k + l) * m + i) with (i + m * (l + k * (j + n * p))) by ring. rewrite C1, C3. unfold bc.
    destruct (o_eqb beta o_zero); [reflexivity|]. rewrite rd_ok' by lia. reflexivity.
  - intros p l j i Hp Hl Hj Hi. destruct (cz4 m k n b i l j p Hi Hl Hj Hp) as (C0 & C1 & C2 & C3 & Cb). auto.
  - intros j Hj. destruct (cz4_inv m k n b j Hm Hk Hn Hb Hj) as (C0 & C1 & C2 & C3 & Cb). auto.
Qed.

Lemma fiber_nest3 m n k (F : T -> Z -> T -> T) (src : vec) (B : Z -> T -> Z -> Z -> vec -> res vec) dst :
  0 < m -> 0 < n -> 0 < k -> zlen src = k -> zlen dst = m * (k * n) ->
  (forall l x j i d, 0 <= l < k -> 0 <= j < n -> 0 <= i < m -> zlen d = m * (k * n) ->
     0 <= i + m * (l + k * j) < m * (k * n) ->
     B l x j i d = wr d (i + m * (l + k * j)) (F x (i + m * (l + k * j)) (zn d (i + m * (l + k * j))))) ->
  for_ 0 k (fun l d => bind (rd src l) (fun x => for_ 0 n (fun j d => for_ 0 m (B l x j) d) d)) dst
  = Ok (ztab (m * (k * n)) (fun j => F (zn src (cz [m; k; n] 1 j)) j (zn dst j))).
Proof.
  intros Hm Hn Hk Hs Hd HB.
  apply (nest3 (m * (k * n)) k n m (cz [m; k; n] 1) (cz [m; k; n] 2) (cz [m; k; n] 0)
    (fun l j i => i + m * (l + k * j))
    (fun j old => F (zn src (cz [m; k; n] 1 j)) j old)
    _ (fun l j d => for_ 0 m (B l (zn src l) j) d)
    (fun l j => B l (zn src l) j)); try lia.
  - intros l d Hl Hld. rewrite rd_ok' by lia. reflexivity.
  - reflexivity.
  - intros l j i d Hl Hj Hi Hld. destruct (cz3 m k n i l j Hi Hl Hj) as (C0 & C1 & C2 & Cb).
    rewrite HB by assumption. rewrite C1. reflexivity.
  - intros l j i Hl Hj Hi. destruct (cz3 m k n i l j Hi Hl Hj) as (C0 & C1 & C2 & Cb). auto.
  - intros j Hj. destruct (cz3_inv m k n j Hm Hk Hn Hj) as (C0 & C1 & C2 & Cb). auto.
Qed.

Lemma k_prod_fiber_ok m n k alpha src dst :
  0 < m -> 0 < n -> 0 < k -> zlen src = k -> zlen dst = m * (k * n) ->
  k_prod_fiber m n k alpha src dst = Ok (ztab (m * (k * n)) (fun j =>
    o_mul (zn dst j) (o_mul alpha (zn src (cz [m; k; n] 1 j))))).
Proof.
  intros Hm Hn Hk Hs Hd. unfold k_prod_fiber. cbv zeta.
  apply (fiber_nest3 m n k (fun x j old => o_mul old (o_mul alpha x)) src
    (fun l x j i d => v <- rd d ((j * k + l) * m + i) ;; wr d ((j * k + l) * m + i) (o_mul v (o_mul alpha x)))); auto.
  intros l x j i d Hl Hj Hi Hld Hb. replace ((j * k + l) * m + i) with (i + m * (l + k * j)) by ring.
  rewrite rd_ok' by lia. reflexivity.
Qed.

Lemma k_prod_fiber3_ok m n k alpha src src2 dst :
  0 < m -> 0 < n -> 0 < k -> zlen src = k -> zlen src2 = m * (k * n) -> zlen dst = m * (k * n) ->
  k_prod_fiber3 m n k alpha src src2 dst = Ok (ztab (m * (k * n)) (fun j =>
    o_mul (o_mul alpha (zn src (cz [m; k; n] 1 j))) (zn src2 j))).
Proof.
  intros Hm Hn Hk Hs Hs2 Hd. unfold k_prod_fiber3. cbv zeta.
  apply (fiber_nest3 m n k (fun x j old => o_mul (o_mul alpha x) (zn src2 j)) src
    (fun l x j i d => v <- rd src2 ((j * k + l) * m + i) ;; wr d ((j * k + l) * m + i) (o_mul (o_mul alpha x) v))); auto.
  intros l x j i d Hl Hj Hi Hld Hb. replace ((j * k + l) * m + i) with (i + m * (l + k * j)) by ring.
  rewrite rd_ok' by lia. reflexivity.
Qed.

Definition ksum2 (n m : Z) (f : Z -> Z -> T) : T * T :=
  fold_left (fun s j => fold_left (fun s i => kahan (f j i) s) (zrange m) s) (zrange n) (o_zero, o_zero).
Definition psum2 (n m : Z) (f : Z -> Z -> T) : T :=
  fold_left (fun s j => fold_left (fun s i => o_add s (f j i)) (zrange m) s) (zrange n) o_zero.
Lemma for_fold2 {S} n m (body : Z -> Z -> S -> res S) (f : Z -> Z -> S -> S) s : 0 <= n -> 0 <= m ->
  (forall j i s, 0 <= j < n -> 0 <= i < m -> body j i s = Ok (f j i s)) ->
  for_ 0 n (fun j s => for_ 0 m (fun i s => body j i s) s) s
  = Ok (fold_left (fun s j => fold_left (fun s i => f j i s) (zrange m) s) (zrange n) s).
Proof.
  intros Hn Hm H. apply (for_fold n _ (fun j s => fold_left (fun s i => f j i s) (zrange m) s)); [assumption|].
  intros j st Hj. apply (for_fold m _ (fun i s => f j i s)); [assumption|]. intros; apply H; assumption.
Qed.
Lemma ksum2_ext n m f g : (forall j i, 0 <= j < n -> 0 <= i < m -> f j i = g j i) -> ksum2 n m f = ksum2 n m g.
Proof.
  intros H. unfold ksum2. apply fold_left_ext. intros a j Hj. apply zrange_In in Hj.
  apply fold_left_ext. intros a' i Hi. apply zrange_In in Hi. rewrite H by assumption. reflexivity.
Qed.
Lemma psum2_ext n m f g : (forall j i, 0 <= j < n -> 0 <= i < m -> f j i = g j i) -> psum2 n m f = psum2 n m g.
Proof.
  intros H. unfold psum2. apply fold_left_ext. intros a j Hj. apply zrange_In in Hj.
  apply fold_left_ext. intros a' i Hi. apply zrange_In in Hi. rewrite H by assumption. reflexivity.
Qed.

(** result of the fiber sum: note the order of the product when beta = 0 *)
Definition fres (alpha beta : T) (p : T * T) (old : T) : T :=
  if o_eqb beta o_zero then o_mul (fst p) alpha
  else o_add (o_sub (o_mul beta old) (o_mul alpha (snd p))) (o_mul alpha (fst p)).

Lemma k_sum_fiber_ok m n k b alpha src beta dst :
  0 < m -> 0 < n -> 0 < k -> 0 < b -> zlen src = m * (k * (n * b)) -> zlen dst = k * b ->
  k_sum_fiber m n k b alpha src beta dst = Ok (ztab (k * b) (fun o =>
    fres alpha beta (ksum2 n m (fun j i => zn src (i + m * (cz [k; b] 0 o + k * (j + n * cz [k; b] 1 o))))) (zn dst o))).
Proof.
  intros Hm Hn Hk Hb Hs Hd. unfold k_sum_fiber. cbv zeta.
  apply (slice_nest2 k b (fun l p old => fres alpha beta (ksum2 n m (fun j i => zn src (i + m * (l + k * (j + n * p))))) old)); auto.
  intros p l d Hp Hl Hld Hbd.
  rewrite (for_fold2 n m _ (fun j i st => kahan (zn src (i + m * (l + k * (j + n * p)))) st)); [|lia|lia|].
  - rewrite bind_Ok. fold (ksum2 n m (fun j i => zn src (i + m * (l + k * (j + n * p))))).
    destruct (ksum2 n m (fun j i => zn src (i + m * (l + k * (j + n * p))))) as [sum c]. unfold fres. cbn [fst snd].
    replace (l + p * k) with (l + k * p) by ring.
    destruct (o_eqb beta o_zero); [reflexivity|]. rewrite rd_ok' by lia. reflexivity.
  - intros j i st Hj Hi. replace (((j + p * n) * k + l) * m + i) with (i + m * (l + k * (j + n * p))) by ring.
    destruct (cz4 m k n b i l j p Hi Hl Hj Hp) as (_ & _ & _ & _ & Cb). rewrite rd_ok' by lia. reflexivity.
Qed.

Definition spres (alpha beta sum old : T) : T :=
  if o_eqb beta o_zero then o_mul alpha sum
  else o_add (o_sub (o_mul beta old) (o_mul alpha o_zero)) (o_mul alpha sum).

Lemma k_sumprod_fiber_ok m n k alpha src1 src2 beta dst :
  0 < m -> 0 < n -> 0 < k -> zlen src1 = m * (k * n) -> zlen src2 = m * (k * n) -> zlen dst = k ->
  k_sumprod_fiber m n k alpha src1 src2 beta dst = Ok (ztab k (fun o =>
    spres alpha beta (psum2 n m (fun j i => o_mul (zn src1 (i + m * (o + k * j))) (zn src2 (i + m * (o + k * j))))) (zn dst o))).
Proof.
  intros Hm Hn Hk Hs Hs2 Hd. unfold k_sumprod_fiber. cbv zeta.
  apply (nest1 k k (fun j => j) (fun j => j) (fun o old => spres alpha beta (psum2 n m (fun j i => o_mul (zn src1 (i + m * (o + k * j))) (zn src2 (i + m * (o + k * j))))) old)); try lia.
  intros l d Hl Hld.
  rewrite (for_fold2 n m _ (fun j i st => o_add st (o_mul (zn src1 (i + m * (l + k * j))) (zn src2 (i + m * (l + k * j)))))); [|lia|lia|].
  - rewrite bind_Ok. fold (psum2 n m (fun j i => o_mul (zn src1 (i + m * (l + k * j))) (zn src2 (i + m * (l + k * j))))).
    unfold spres. destruct (o_eqb beta o_zero); [reflexivity|]. rewrite rd_ok' by lia. reflexivity.
  - intros j i st Hj Hi. replace ((j * k + l) * m + i) with (i + m * (l + k * j)) by ring.
    destruct (cz3 m k n i l j Hi Hl Hj) as (_ & _ & _ & Cb). rewrite !rd_ok' by lia. reflexivity.
Qed.
End K.

(** *** Which source tile writes first *)
Lemma init_first_ok hi a l : 0 <= hi <= zlen l ->
  exists b, init_first hi a l = Ok b /\ (b = true <-> forall j, 0 <= j < hi -> j <> a -> zn l j = 0).
Proof.
  intros H. unfold init_first.
  match goal with |- exists b, for_ 0 hi ?bd true = _ /\ _ =>
    destruct (for_inv (fun k b => b = true <-> forall j, 0 <= j < k -> j <> a -> zn l j = 0) 0 hi bd true) as (b & E & Hb) end.
  - lia.
  - split; [intros; lia|reflexivity].
  - intros i b Hi IH. rewrite rd_ok' by lia. eexists. split; [reflexivity|].
    destruct (Z.eqb_spec i a) as [Ea|Ea]; cbn [negb andb].
    + rewrite IH. split; intros G j Hj Hja; apply G; lia.
    + destruct (Z.eqb_spec (zn l i) 0) as [Ez|Ez]; cbn [negb].
      * rewrite IH. split; intros G j Hj Hja; [destruct (Z.eq_dec j i) as [->|]; [assumption|]|]; apply G; lia.
      * split; [discriminate|]. intros G. exfalso. apply Ez. apply G; lia.
  - exists b. split; assumption.
Qed.

Lemma off_zero g u : inb g u -> (off g u = 0 <-> forall j, 0 <= j < zlen u -> zn u j = 0).
Proof.
  induction 1 as [|s i g u Hi Hu IH].
  - split; [intros _ j Hj; change (zlen (@nil Z)) with 0 in Hj; lia|reflexivity].
  - cbn [off]. pose proof (off_bound _ _ Hu) as Hb. rewrite zlen_cons. split.
    + intros E. assert (i = 0 /\ off g u = 0) as [-> E'] by nia.
      intros j Hj. destruct (Z.eq_dec j 0) as [->|]; [reflexivity|].
      rewrite zn_consS by lia. apply IH; [assumption|lia].
    + intros G. assert (i = 0) as -> by (apply (G 0); pose proof (zlen_nonneg u); lia).
      assert (off g u = 0) as ->; [|ring]. apply IH. intros j Hj. specialize (G (j + 1) ltac:(lia)).
      rewrite zn_consS in G by lia. rewrite Z.add_simpl_r in G. assumption.
Qed.

Lemma filter_head (P : Z -> bool) n x : 0 <= x < n -> P x = true -> (forall i, 0 <= i < n -> P i = true -> x <= i) ->
  exists l, filter P (zrange n) = x :: l /\ (forall i, In i l -> 0 <= i < n /\ P i = true /\ x < i).
Proof.
  intros Hx Hp Hmin.
  assert (E : zrange n = zrange x ++ map (fun i => x + i) (zrange (n - x))).
  { replace n with (x + (n - x)) at 1 by ring.
    assert (G : forall a b, 0 <= a -> 0 <= b -> zrange (a + b) = zrange a ++ map (fun l => a + l) (zrange b)).
    { intros a b Ha Hb. revert b Hb. apply natlike_ind.
      - rewrite Z.add_0_r. rewrite (zrange_neg 0) by lia. simpl. rewrite app_nil_r. reflexivity.
      - intros b Hb IH. unfold Z.succ. rewrite Z.add_assoc. rewrite !zrange_succ by lia. rewrite IH.
        rewrite map_app, app_assoc. reflexivity. }
    apply G; lia. }
  assert (E2 : exists l, zrange (n - x) = 0 :: l /\ forall i, In i l -> 0 < i < n - x).
  { pose proof (NoDup_zrange (n - x)) as Hd. pose proof (zlen_zrange (n - x) ltac:(lia)) as Hl.
    destruct (zrange (n - x)) as [|y l] eqn:Ez; [change (zlen (@nil Z)) with 0 in Hl; lia|].
    assert (y = 0) as ->.
    { assert (X : zn (zrange (n - x)) 0 = 0) by (rewrite zn_zrange by lia; lia). rewrite Ez in X. exact X. }
    exists l. split; [reflexivity|]. intros i Hi. inversion Hd; subst.
    assert (X : In i (zrange (n - x))) by (rewrite Ez; right; assumption). apply zrange_In in X.
    destruct (Z.eq_dec i 0) as [->|]; [tauto|lia]. }
  destruct E2 as (l & E2 & Hl). exists (filter P (map (fun i => x + i) l)). split.
  - rewrite E, E2. rewrite filter_app'. rewrite filter_none.
    + cbn [map app filter]. replace (x + 0) with x by ring. rewrite Hp. reflexivity.
    + intros i Hi. apply zrange_In in Hi. destruct (P i) eqn:Ei; [|reflexivity]. specialize (Hmin i ltac:(lia) Ei). lia.
  - intros i Hi. apply filter_In in Hi as [Hi Hpi]. apply in_map_iff in Hi as (y & <- & Hy). specialize (Hl y Hy).
    split; [lia|]. split; [assumption|lia].
Qed.

Section G.
Variables (big small : tensor) (axis b : Z).
Hypothesis (Hb : wft big) (Hs : wft small) (Hm : fiber_match big small axis b).
Let gb := gridZ (t_shape big) (t_base big).
Let gs := gridZ (t_shape small) (t_base small).

(** Is this the tile of [big] whose coordinates outside the fiber are all zero? *)
Definition fg_first (i : Z) : bool :=
  match init_first (zlen (t_shape big) - b) axis (unoff (gridZ (t_shape big) (t_base big)) i) with Ok true => true | _ => false end.

Lemma fg_grid i : 0 <= i < ntiles big ->
  let d := dim4 axis b gb in
  exists o0 l o2 o3, 0 <= o0 < zn d 0 /\ 0 <= l < zn d 1 /\ 0 <= o2 < zn d 2 /\ 0 <= o3 < zn d 3 /\
    i = o0 + zn d 0 * (l + zn d 1 * (o2 + zn d 2 * o3)) /\ fg_out big small axis b i = l + zn d 1 * o3 /\
    ntiles big = zn d 0 * (zn d 1 * (zn d 2 * zn d 3)) /\
    ntiles small = zn d 1 * zn d 3 /\
    init_first (zlen (t_shape big) - b) axis (unoff gb i) = Ok (fg_first i) /\
    (fg_first i = true <-> o0 = 0 /\ o2 = 0).
Proof.
  intros Hi d. destruct (id Hm) as (Hb0 & Ha & _). pose proof (zlen_fgb big Hb) as Hg. fold gb in Hg.
  assert (P : pos gb) by (apply wf_pg; assumption).
  assert (Hu : inb gb (unoff gb i)) by (apply unoff_inb; assumption).
  pose proof (fgs_eq big small axis b Hb Hm) as Egs. fold gs gb in Egs.
  assert (Hz : zlen (unoff gb i) = zlen (t_shape big)) by (rewrite zlen_unoff; assumption).
  destruct (init_first_ok (zlen (t_shape big) - b) axis (unoff gb i)) as (f & Ef & Hf); [lia|].
  assert (Eff : fg_first i = f) by (unfold fg_first; fold gb; rewrite Ef; destruct f; reflexivity).
  rewrite Eff, Ef. clear Eff Ef.
  assert (Ei : i = off gb (unoff gb i)) by (symmetry; apply off_unoff; assumption).
  assert (Eo : fg_out big small axis b i = off gs (fib axis b (unoff gb i))) by reflexivity.
  assert (En : ntiles big = prodZ gb) by reflexivity. assert (En' : ntiles small = prodZ gs) by reflexivity.
  rewrite Eo, En, En', Egs. unfold d. clear d Eo En En' Egs. remember (unoff gb i) as u eqn:Eu. clear Eu.
  destruct (split4 gb axis b Hb0) as (g1 & k & g2 & g3 & Egb & L1 & L3); [lia|]. rewrite Egb in *.
  apply inb_split in Hu as (i1 & l & i2 & -> & Hl1 & G1 & G2 & G3).
  apply inb_app_inv_l in G3 as (i3 & i4 & -> & G4 & G5).
  apply pos_app in P as [P1 P]. inversion P as [|? ? Pk P']. apply pos_app in P' as [P2 P3].
  rewrite dim4_app by assumption.
  change (zn [prodZ g1; k; prodZ g2; prodZ g3] 0) with (prodZ g1). change (zn [prodZ g1; k; prodZ g2; prodZ g3] 1) with k.
  change (zn [prodZ g1; k; prodZ g2; prodZ g3] 2) with (prodZ g2). change (zn [prodZ g1; k; prodZ g2; prodZ g3] 3) with (prodZ g3).
  pose proof (inb_zlen _ _ G1) as Z1. pose proof (inb_zlen _ _ G4) as Z4. pose proof (inb_zlen _ _ G5) as Z5.
  exists (off g1 i1), l, (off g2 i3), (off g3 i4).
  split; [apply off_bound; assumption|]. split; [assumption|]. split; [apply off_bound; assumption|]. split; [apply off_bound; assumption|].
  split; [|split; [|split; [|split; [|split]]]].
  - rewrite Ei. rewrite off_app by (apply inb_length; assumption). cbn [off]. rewrite off_app by (apply inb_length; assumption). reflexivity.
  - rewrite !fib_app by congruence. reflexivity.
  - rewrite prodZ_app. cbn [prodZ]. rewrite prodZ_app. reflexivity.
  - rewrite fib_app by assumption. reflexivity.
  - reflexivity.
  - rewrite Hf. rewrite (off_zero _ _ G1), (off_zero _ _ G4).
    assert (Hn : zlen (t_shape big) - b = axis + 1 + zlen i3).
    { rewrite !zlen_app, !zlen_cons, !zlen_app in Hz. lia. }
    pose proof (zlen_nonneg i3). split.
    + intros G. split; intros j Hj.
      * specialize (G j ltac:(lia) ltac:(lia)). rewrite zn_app1 in G by lia. assumption.
      * specialize (G (axis + 1 + j) ltac:(lia) ltac:(lia)). rewrite zn_app2 in G by lia.
        replace (axis + 1 + j - zlen i1) with (j + 1) in G by lia. rewrite zn_consS in G by lia. rewrite Z.add_simpl_r in G.
        rewrite zn_app1 in G by lia. assumption.
    + intros [GA GB] j Hj Hja. destruct (Z_lt_ge_dec j axis).
      * rewrite zn_app1 by lia. apply GA. lia.
      * rewrite zn_app2 by lia. rewrite zn_consS by lia.
        rewrite zn_app1 by lia. apply GB. lia.
Qed.

(** The contributions to tile t of [small] start with the unique "first" tile. *)
Lemma fg_filter t : 0 <= t < ntiles small -> exists x l,
  filter (fun i => fg_out big small axis b i =? t) (zrange (ntiles big)) = x :: l /\
  fg_first x = true /\ (forall i, In i l -> fg_first i = false) /\
  (forall i, In i (x :: l) -> 0 <= i < ntiles big /\ fg_out big small axis b i = t).
Proof.
  intros Ht. set (d := dim4 axis b gb).
  assert (Hn0 : 0 < ntiles big) by (apply prodZ_pos, wf_pg; assumption).
  destruct (fg_grid 0 ltac:(lia)) as (a0 & a1 & a2 & a3 & A0 & A1 & A2 & A3 & _ & _ & En & En' & _). fold d in A0, A1, A2, A3, En, En'.
  assert (D0 : 0 < zn d 0) by lia. assert (D1 : 0 < zn d 1) by lia. assert (D2 : 0 < zn d 2) by lia. assert (D3 : 0 < zn d 3) by lia.
  clear A0 A1 A2 A3.
  rewrite En' in Ht. destruct (cz2_inv _ _ _ D1 D3 Ht) as (C0 & C1 & C2).
  set (l := cz [zn d 1; zn d 3] 0 t) in *. set (p := cz [zn d 1; zn d 3] 1 t) in *.
  set (x := 0 + zn d 0 * (l + zn d 1 * (0 + zn d 2 * p))).
  destruct (cz4 (zn d 0) (zn d 1) (zn d 2) (zn d 3) 0 l 0 p) as (E0 & E1 & E2 & E3 & Exb); try lia. fold x in E0, E1, E2, E3, Exb.
  assert (Key : forall i, 0 <= i < ntiles big -> fg_out big small axis b i = t ->
     x <= i /\ (fg_first i = true <-> i = x)).
  { intros i Hi Eo. destruct (fg_grid i Hi) as (o0 & l' & o2 & o3 & B0 & B1 & B2 & B3 & Ei & Eo' & _ & _ & _ & Hf).
    fold d in B0, B1, B2, B3, Ei, Eo'. rewrite Eo in Eo'.
    destruct (cz2 _ _ _ _ B1 B3) as (F0 & F1 & _). rewrite <- Eo' in F0, F1. fold l in F0. fold p in F1. subst l' o3.
    destruct (cz4 _ _ _ _ _ _ _ _ B0 B1 B2 B3) as (H0 & H1 & H2 & H3 & _). rewrite <- Ei in H0, H1, H2, H3.
    split.
    - rewrite Ei. unfold x. apply Z.add_le_mono; [lia|]. apply Z.mul_le_mono_nonneg_l; [lia|].
      apply Z.add_le_mono_l. apply Z.mul_le_mono_nonneg_l; lia.
    - rewrite Hf. split.
      + intros [-> ->]. exact Ei.
      + intros ->. lia. }
  assert (Ox : fg_out big small axis b x = t).
  { destruct (fg_grid x ltac:(lia)) as (o0 & l' & o2 & o3 & B0 & B1 & B2 & B3 & Ei & Eo' & _).
    fold d in B0, B1, B2, B3, Ei, Eo'. destruct (cz4 _ _ _ _ _ _ _ _ B0 B1 B2 B3) as (H0 & H1 & H2 & H3 & _).
    rewrite <- Ei in H0, H1, H2, H3. rewrite Eo', <- C2. congruence. }
  destruct (filter_head (fun i => fg_out big small axis b i =? t) (ntiles big) x) as (r & Er & Hr).
  - lia.
  - apply Z.eqb_eq. assumption.
  - intros i Hi Ei. apply Z.eqb_eq in Ei. apply Key; assumption.
  - exists x, r. split; [assumption|]. split; [apply Key; auto; lia|]. split.
    + intros i Hi. destruct (Hr i Hi) as (H1 & H2 & H3). apply Z.eqb_eq in H2.
      destruct (fg_first i) eqn:Ef; [|reflexivity]. apply Key in Ef; try assumption. lia.
    + intros i [<-|Hi]; [split; [lia|assumption]|]. destruct (Hr i Hi) as (H1 & H2 & H3). apply Z.eqb_eq in H2. auto.
Qed.
End G.

Section R.
Context {T : Type} {O : Ops T}.
Local Notation vec := (list T).

(** *** Broadcast of a fiber: one task per tile of [dst] *)
Section Bcast.
Variables (src dst : tensor) (axis b : Z).
Hypothesis (HA : wft src) (HB : wft dst).
Let d4 (i : Z) := dim4 axis b (tsh dst i).
Let fo (i : Z) := fg_out dst src axis b i.

Lemma fiber_tile_steps i {A} (K : handle -> TileTraits -> Z * Z * Z -> Z -> res A) : fiber_match dst src axis b -> 0 <= i < ntiles dst ->
  (v <- linear_to_index (t_grid dst) i ;; tr <- get_tile_traits dst i ;; h <- get_tile_handle dst i ;;
   w <- fiber_index dst src axis b v ;; h2 <- get_tile_handle_idx src w ;; tr2 <- get_tile_traits_idx src w ;;
   q <- rd (tt_ms tr2) 1 ;; mnk <- tile_mnk tr axis ;; K h2 tr mnk (snd q)) =
  K (th src (fo i)) (tt_of (tsh dst i)) (zn (d4 i) 0, zn (d4 i) 2 * zn (d4 i) 3, zn (d4 i) 1) (zn (d4 i) 3).
Proof.
  intros Hm Hi. pose proof (zlen_gb _ HB) as Hg.
  destruct (fg_sizes dst src axis b HB Hm i Hi) as (_ & _ & _ & _ & _ & _ & E1 & (x & E2)).
  rewrite t_grid_eq by assumption. rewrite linear_to_index_ok by (auto using wf_pg). bnd.
  rewrite get_tile_traits_ok, get_tile_handle_ok by assumption. bnd. bnd.
  rewrite (fiber_index_ok dst src axis b) by (try assumption; rewrite zlen_unoff; assumption). bnd.
  pose proof (fg_inb dst src axis b HB Hm i Hi) as Hin.
  rewrite get_tile_handle_idx_ok, get_tile_traits_idx_ok by assumption. bnd. bnd.
  assert (Et : tshape (t_shape src) (t_base src) (fib axis b (unoff (gridZ (t_shape dst) (t_base dst)) i)) = tsh src (fo i)).
  { unfold tsh, fo, fg_out. rewrite unoff_off by assumption. reflexivity. }
  rewrite Et. unfold fo at 1. rewrite E2. bnd. rewrite E1. bnd. reflexivity.
Qed.

Lemma add_fiber_submits alpha beta : fiber_match dst src axis b -> o_eqb alpha o_zero = false ->
  add_fiber_async alpha src beta dst axis b =
    Ok (map (fun i => add_fiber_submit (zn (d4 i) 0) (zn (d4 i) 2) (zn (d4 i) 1) (zn (d4 i) 3) alpha (th src (fo i)) beta
                        (th dst i)) (zrange (ntiles dst))).
Proof.
  intros Hm Ha. unfold add_fiber_async.
  rewrite (checks_true _ _ (fiber_check_checks dst src axis b HB HA (proj1 Hm))) by assumption. bnd. rewrite Ha.
  rewrite t_ntiles_eq by assumption.
  apply (for_map (ntiles dst) _ (fun i => add_fiber_submit (zn (d4 i) 0) (zn (d4 i) 2) (zn (d4 i) 1) (zn (d4 i) 3) alpha (th src (fo i)) beta
                        (th dst i)) []). intros i ts Hi.
  pose proof (fiber_tile_steps i (fun h2 tr mnk bt => 
    let '(m, n, k) := mnk in
    Ok (ts ++ [add_fiber_submit m (n / bt) k bt alpha h2 beta (th dst i)])) Hm Hi) as E.
  cbv beta iota zeta in E. rewrite get_tile_handle_ok in E |- * by assumption.
  eapply eq_trans; [exact E|]. destruct (fg_sizes dst src axis b HB Hm i Hi) as (_ & _ & D2 & D3 & _).
  fold (d4 i) in D2, D3. rewrite Z.div_mul by lia. reflexivity.
Qed.

(** value of the fiber element under element idx of dst *)
Lemma fib_value (s : store T) idx : fiber_match dst src axis b -> inb (t_shape dst) idx ->
  let i := etile dst idx in let d := d4 i in let q := [zn d 0; zn d 1; zn d 2; zn d 3] in
  zn (fl (s (th src (fo i)))) (cz q 1 (eoff dst idx) + zn d 1 * cz q 3 (eoff dst idx)) = elem s src (fib axis b idx).
Proof.
  intros Hm Hi i d q. destruct (fg_geo dst src axis b HB HA Hm idx Hi) as (_ & G2 & o0 & l & o2 & o3 & B0 & B1 & B2 & B3 & G3 & G4).
  fold i in G2, B0, B1, B2, B3, G3, G4. fold (d4 i) in B0, B1, B2, B3, G3, G4. fold d in B0, B1, B2, B3, G3, G4.
  unfold elem. rewrite G2, G4, G3. destruct (cz4 _ _ _ _ _ _ _ _ B0 B1 B2 B3) as (_ & C1 & _ & C3 & _). unfold q. rewrite C1, C3. reflexivity.
Qed.

Lemma id_filter t idx : wft t -> inb (t_shape t) idx -> filter (fun i => i =? etile t idx) (zrange (ntiles t)) = [etile t idx].
Proof.
  intros Ht Hi. apply filter_single; [apply NoDup_zrange|apply zrange_In, etile_bound; assumption|apply Z.eqb_refl|].
  intros y _ E. apply Z.eqb_eq in E. assumption.
Qed.

Theorem add_fiber_runs alpha beta s : fiber_match dst src axis b -> o_eqb alpha o_zero = false ->
  disj src dst -> stored KF s src -> stored KF s dst ->
  runs (add_fiber_async alpha src beta dst axis b) s (fun s' =>
    (forall idx, inb (t_shape dst) idx ->
       elem s' dst idx = bc beta (o_mul alpha (elem s src (fib axis b idx))) (elem s dst idx)) /\
    frame [dst] s s').
Proof.
  intros Hm Ha Hd S1 S2.
  eapply runs_weaken; [apply (acc_elem dst (zrange (ntiles dst)) (fun i => i) (fun _ => bmode beta)
    (fun i => [th src (fo i)]) (fun _ => []) (fun _ => [])
    (fun i => wrap2 (fun x d => k_add_fiber (zn (d4 i) 0) (zn (d4 i) 2) (zn (d4 i) 1) (zn (d4 i) 3) alpha x beta d))
    (fun i b1 _ o v => bc beta (o_mul alpha (zn (fl (hd (BF []) b1))
       (cz [zn (d4 i) 0; zn (d4 i) 1; zn (d4 i) 2; zn (d4 i) 3] 1 o + zn (d4 i) 1 * cz [zn (d4 i) 0; zn (d4 i) 1; zn (d4 i) 2; zn (d4 i) 3] 3 o))) v))|].
  - assumption.
  - assumption.
  - rewrite add_fiber_submits by assumption. reflexivity.
  - intros i Hx. apply zrange_In in Hx. assumption.
  - intros x _. apply bmode_cases.
  - intros i h Hx [[<-|[]]|[[]|[]]]. apply zrange_In in Hx. apply disj_notin; try assumption. apply fg_bound; assumption.
  - intros x b1 b2 o v v' _ E. unfold bmode in E. unfold bc. destruct (o_eqb beta o_zero); [reflexivity|discriminate].
  - intros i st d sc Hx Ht Hl Hsc. apply zrange_In in Hx.
    destruct sc; [|discriminate]. exists []. split; [|reflexivity].
    destruct (fg_sizes dst src axis b HB Hm i Hx) as (D0 & D1 & D2 & D3 & T1 & T2 & _).
    fold (d4 i) in D0, D1, D2, D3, T1, T2. fold (fo i) in T2.
    pose proof (fg_bound dst src axis b HB Hm i Hx) as Hfb. fold (fo i) in Hfb.
    destruct (bufF s st src (fo i) Ht S1 Hfb) as (l & E & Hll).
    cbn [map app]. rewrite E. cbn [wrap2 app].
    rewrite k_add_fiber_ok by (assumption || congruence). bnd. rewrite T1. reflexivity.
  - intros s' _ [H1 H2]. split; [|assumption]. intros idx Hi. rewrite H1 by assumption.
    rewrite id_filter by assumption. cbn [fold_left map hd]. do 2 f_equal.
    apply (fib_value s idx Hm Hi).
Qed.
End Bcast.

(** *** One-dimensional fibers: batch_ndim = 0 *)
Section B1.
Variables (src dst : tensor) (axis : Z).
Hypothesis (HA : wft src) (HB : wft dst).
Let d4 (i : Z) := dim4 axis 0 (tsh dst i).
Let fo (i : Z) := fg_out dst src axis 0 i.

Lemma d4_3 i : fiber_match dst src axis 0 -> 0 <= i < ntiles dst -> zn (d4 i) 3 = 1.
Proof.
  intros Hm Hi. unfold d4. destruct (fg_view dst src axis 0 HB Hm i Hi) as (s1 & k & s2 & s3 & E & L1 & L3 & _ & _ & _ & _ & Ed & _).
  rewrite Ed. change (zn [prodZ s1; k; prodZ s2; prodZ s3] 3) with (prodZ s3).
  destruct s3; [reflexivity|]. rewrite zlen_cons in L3. pose proof (zlen_nonneg s3). lia.
Qed.
Lemma fo1 i : fiber_match dst src axis 0 -> 0 <= i < ntiles dst ->
  rd (unoff (gridZ (t_shape dst) (t_base dst)) i) axis = Ok (fo i).
Proof.
  intros Hm Hi. destruct (id Hm) as (_ & Ha & E1 & E2). unfold fo, fg_out.
  pose proof (zlen_gb dst HB) as Hg.
  rewrite rd_ok by (rewrite zlen_unoff; lia). f_equal. unfold fib.
  rewrite zlen_unoff, Z.sub_0_r.
  assert (skipn (Z.to_nat (zlen (gridZ (t_shape dst) (t_base dst)))) (unoff (gridZ (t_shape dst) (t_base dst)) i) = []) as ->.
  { apply skipn_all2. rewrite unoff_length. unfold zlen. lia. }
  assert (Hl : zlen (t_shape src) = 1) by (rewrite E1, zlen_fib by (lia || assumption); reflexivity).
  pose proof (zlen_gb src HA) as Hg2. destruct (gridZ (t_shape src) (t_base src)) as [|g r]; [change (zlen (@nil Z)) with 0 in Hg2; lia|].
  cbn [off]. destruct r; cbn [off]; ring.
Qed.
Lemma mnk1 i : fiber_match dst src axis 0 -> 0 <= i < ntiles dst ->
  tile_mnk (tt_of (tsh dst i)) axis = Ok (zn (d4 i) 0, zn (d4 i) 2, zn (d4 i) 1).
Proof.
  intros Hm Hi. destruct (fg_sizes dst src axis 0 HB Hm i Hi) as (_ & _ & _ & _ & _ & _ & E1 & _).
  fold (d4 i) in E1. rewrite E1. rewrite d4_3 by assumption. rewrite Z.mul_1_r. reflexivity.
Qed.
Lemma sizes1 i : fiber_match dst src axis 0 -> 0 <= i < ntiles dst ->
  0 < zn (d4 i) 0 /\ 0 < zn (d4 i) 1 /\ 0 < zn (d4 i) 2 /\ tsz dst i = zn (d4 i) 0 * (zn (d4 i) 1 * zn (d4 i) 2) /\
  tsz src (fo i) = zn (d4 i) 1 /\ 0 <= fo i < ntiles src.
Proof.
  intros Hm Hi. destruct (fg_sizes dst src axis 0 HB Hm i Hi) as (D0 & D1 & D2 & D3 & T1 & T2 & _).
  fold (d4 i) in *. fold (fo i) in T2. rewrite d4_3 in * by assumption. rewrite !Z.mul_1_r in *.
  repeat (split; [assumption|]). apply fg_bound; assumption.
Qed.
Lemma fib_value1 (s : store T) idx : fiber_match dst src axis 0 -> inb (t_shape dst) idx ->
  let i := etile dst idx in let d := d4 i in
  zn (fl (s (th src (fo i)))) (cz [zn d 0; zn d 1; zn d 2] 1 (eoff dst idx)) = elem s src (fib axis 0 idx).
Proof.
  intros Hm Hi i d. destruct (fg_geo dst src axis 0 HB HA Hm idx Hi) as (_ & G2 & o0 & l & o2 & o3 & B0 & B1 & B2 & B3 & G3 & G4).
  fold i in G2, B0, B1, B2, B3, G3, G4. fold (d4 i) in B0, B1, B2, B3, G3, G4.
  assert (Hib : 0 <= i < ntiles dst) by (apply etile_bound; assumption).
  rewrite d4_3 in B3 by assumption. fold d in B0, B1, B2, G3, G4. assert (o3 = 0) as -> by lia.
  unfold elem. rewrite G2, G4, G3. rewrite !Z.mul_0_r, !Z.add_0_r.
  destruct (cz3 _ _ _ _ _ _ B0 B1 B2) as (_ & C1 & _). rewrite C1. reflexivity.
Qed.

Lemma prod_fiber_checks : checks (fiber_match dst src axis 0)
  (throw_if (negb (t_ndim src =? 1)%Z) "src.ndim != 1" (fiber1_check dst src axis (Ok tt))).
Proof.
  rewrite t_ndim_eq by assumption.
  apply (checks_iff (zlen (t_shape src) = 1 /\ fiber_match dst src axis 0 /\ True)).
  { split; [tauto|]. intros Hm. split; [|tauto]. destruct Hm as (_ & Ha & E & _). rewrite E, zlen_fib by (lia || assumption). reflexivity. }
  apply checks_eq. intros E. apply fiber1_checks; auto using checks_ok.
Qed.

Lemma prod_fiber_submits alpha : fiber_match dst src axis 0 ->
  prod_fiber_async src alpha dst axis =
    Ok (map (fun i => prod_fiber_submit (zn (d4 i) 0) (zn (d4 i) 2) (zn (d4 i) 1) alpha (th src (fo i)) (th dst i)) (zrange (ntiles dst))).
Proof.
  intros Hm. unfold prod_fiber_async. rewrite (checks_true _ _ prod_fiber_checks) by assumption. bnd.
  rewrite t_ntiles_eq by assumption.
  apply (for_map (ntiles dst) _ (fun i => prod_fiber_submit (zn (d4 i) 0) (zn (d4 i) 2) (zn (d4 i) 1) alpha (th src (fo i)) (th dst i)) []).
  intros i ts Hi. rewrite t_grid_eq by assumption. rewrite linear_to_index_ok by (auto using wf_pg). bnd.
  rewrite get_tile_traits_ok, get_tile_handle_ok by assumption. bnd. bnd. rewrite fo1 by assumption. bnd.
  rewrite get_tile_handle_ok by (auto; apply sizes1; assumption). bnd. rewrite mnk1 by assumption. bnd. reflexivity.
Qed.

Theorem prod_fiber_runs alpha s : fiber_match dst src axis 0 -> disj src dst -> stored KF s src -> stored KF s dst ->
  runs (prod_fiber_async src alpha dst axis) s (fun s' =>
    (forall idx, inb (t_shape dst) idx ->
       elem s' dst idx = o_mul (elem s dst idx) (o_mul alpha (elem s src (fib axis 0 idx)))) /\
    frame [dst] s s').
Proof.
  intros Hm Hd S1 S2.
  eapply runs_weaken; [apply (acc_elem dst (zrange (ntiles dst)) (fun i => i) (fun _ => MRW)
    (fun i => [th src (fo i)]) (fun _ => []) (fun _ => [])
    (fun i => wrap2 (k_prod_fiber (zn (d4 i) 0) (zn (d4 i) 2) (zn (d4 i) 1) alpha))
    (fun i b1 _ o v => o_mul v (o_mul alpha (zn (fl (hd (BF []) b1))
       (cz [zn (d4 i) 0; zn (d4 i) 1; zn (d4 i) 2] 1 o)))))|].
  - assumption.
  - assumption.
  - rewrite prod_fiber_submits by assumption. reflexivity.
  - intros i Hx. apply zrange_In in Hx. assumption.
  - auto.
  - intros i h Hx [[<-|[]]|[[]|[]]]. apply zrange_In in Hx. apply disj_notin; try assumption. apply sizes1; assumption.
  - discriminate.
  - intros i st d sc Hx Ht Hl Hsc. apply zrange_In in Hx.
    destruct sc; [|discriminate]. exists []. split; [|reflexivity].
    destruct (sizes1 i Hm Hx) as (D0 & D1 & D2 & T1 & T2 & Hfb).
    destruct (bufF s st src (fo i) Ht S1 Hfb) as (l & E & Hll).
    cbn [map app]. rewrite E. cbn [wrap2 app].
    rewrite k_prod_fiber_ok by (assumption || congruence). bnd. rewrite T1. reflexivity.
  - intros s' _ [H1 H2]. split; [|assumption]. intros idx Hi. rewrite H1 by assumption.
    rewrite id_filter by assumption. cbn [fold_left map hd]. do 2 f_equal.
    apply (fib_value1 s idx Hm Hi).
Qed.

Variable src2 : tensor.
Hypothesis (HC : wft src2).
Lemma prod_fiber3_checks : checks (fiber_match dst src axis 0 /\ t_shape src2 = t_shape dst /\ t_base src2 = t_base dst)
  (prod_fiber3_check src src2 dst axis).
Proof.
  unfold prod_fiber3_check. rewrite !t_ndim_eq by assumption.
  apply (checks_iff (zlen (t_shape src) = 1 /\ zlen (t_shape src2) = zlen (t_shape dst) /\ fiber_match dst src axis 0 /\
     t_shape src2 = t_shape dst /\ t_base src2 = t_base dst /\ True)).
  { split; [tauto|]. intros (Hm & E1 & E2). split; [|split; [rewrite E1; reflexivity|tauto]].
    destruct Hm as (_ & Ha & E & _). rewrite E, zlen_fib by (lia || assumption). reflexivity. }
  apply checks_eq. intros E. apply checks_eq. intros _. apply fiber1_checks; auto. intros _.
  apply list_eqb_checks. intros _. apply list_eqb_checks. intros _. apply checks_ok.
Qed.
Lemma prod_fiber3_submits alpha : fiber_match dst src axis 0 -> t_shape src2 = t_shape dst -> t_base src2 = t_base dst ->
  prod_fiber3_async src alpha src2 dst axis =
    Ok (map (fun i => prod_fiber3_submit (zn (d4 i) 0) (zn (d4 i) 2) (zn (d4 i) 1) alpha (th src (fo i)) (th src2 i) (th dst i)) (zrange (ntiles dst))).
Proof.
  intros Hm E1 E2. unfold prod_fiber3_async. rewrite (checks_true _ _ prod_fiber3_checks) by auto. bnd.
  rewrite t_ntiles_eq by assumption.
  apply (for_map (ntiles dst) _ (fun i => prod_fiber3_submit (zn (d4 i) 0) (zn (d4 i) 2) (zn (d4 i) 1) alpha (th src (fo i)) (th src2 i) (th dst i)) []).
  intros i ts Hi. rewrite t_grid_eq by assumption. rewrite linear_to_index_ok by (auto using wf_pg). bnd.
  rewrite get_tile_traits_ok, get_tile_handle_ok by assumption. bnd. bnd. rewrite fo1 by assumption. bnd.
  rewrite get_tile_handle_ok by (auto; apply sizes1; assumption). bnd.
  rewrite get_tile_handle_ok by (auto; rewrite (ntiles_ext src2 dst); assumption). bnd. rewrite mnk1 by assumption. bnd. reflexivity.
Qed.
Theorem prod_fiber3_runs alpha s : fiber_match dst src axis 0 -> t_shape src2 = t_shape dst -> t_base src2 = t_base dst ->
  disj src dst -> disj src2 dst -> stored KF s src -> stored KF s src2 -> stored KF s dst ->
  runs (prod_fiber3_async src alpha src2 dst axis) s (fun s' =>
    (forall idx, inb (t_shape dst) idx ->
       elem s' dst idx = o_mul (o_mul alpha (elem s src (fib axis 0 idx))) (elem s src2 idx)) /\
    frame [dst] s s').
Proof.
  intros Hm E1 E2 Hd Hd2 S1 S3 S2.
  eapply runs_weaken; [apply (acc_elem dst (zrange (ntiles dst)) (fun i => i) (fun _ => MW)
    (fun i => [th src (fo i); th src2 i]) (fun _ => []) (fun _ => [])
    (fun i => wrap3 (k_prod_fiber3 (zn (d4 i) 0) (zn (d4 i) 2) (zn (d4 i) 1) alpha))
    (fun i b1 _ o v => o_mul (o_mul alpha (zn (fl (hd (BF []) b1))
       (cz [zn (d4 i) 0; zn (d4 i) 1; zn (d4 i) 2] 1 o))) (zn (fl (hd (BF []) (tl b1))) o)))|].
  - assumption.
  - assumption.
  - rewrite prod_fiber3_submits by assumption. reflexivity.
  - intros i Hx. apply zrange_In in Hx. assumption.
  - auto.
  - intros i h Hx [[<-|[<-|[]]]|[[]|[]]]; apply zrange_In in Hx; apply disj_notin; try assumption.
    + apply sizes1; assumption.
    + rewrite (ntiles_ext src2 dst); assumption.
  - reflexivity.
  - intros i st d sc Hx Ht Hl Hsc. apply zrange_In in Hx.
    destruct sc; [|discriminate]. exists []. split; [|reflexivity].
    destruct (sizes1 i Hm Hx) as (D0 & D1 & D2 & T1 & T2 & Hfb).
    assert (Hx2 : 0 <= i < ntiles src2) by (rewrite (ntiles_ext src2 dst); assumption).
    destruct (bufF s st src (fo i) Ht S1 Hfb) as (l & E & Hll).
    destruct (bufF s st src2 i Ht S3 Hx2) as (l2 & E' & Hll2). rewrite (tsz_ext src2 dst) in Hll2 by assumption.
    cbn [map app]. rewrite E, E'. cbn [wrap3 app].
    rewrite k_prod_fiber3_ok by (assumption || congruence). bnd. rewrite T1. reflexivity.
  - intros s' _ [H1 H2]. split; [|assumption]. intros idx Hi. rewrite H1 by assumption.
    rewrite id_filter by assumption. cbn [fold_left map hd tl]. f_equal.
    + f_equal. apply (fib_value1 s idx Hm Hi).
    + unfold elem. rewrite (etile_ext src2 dst), (eoff_ext src2 dst) by assumption. reflexivity.
Qed.
End B1.
End R.
