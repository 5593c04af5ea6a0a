(** * Soft-max and normalisation family: what the tiled operations do (any scalar operations) *)
From Verif Require Import Base Spec Geometry Traits TraitsProofs Runtime Ops TensorSem ElemGeneric OneOut
  KernelsElem ElemOps Axis AccRuns Loops SliceOps SliceGeo SliceProofs SliceReduce SoftmaxOps PairGeo.

(** The pair at coordinate [idx] of a tensor of pairs. *)
Definition pelem {T} `{Dflt T} (s : store T) (P : tensor) (idx : list Z) : T * T :=
  (elem s P (0 :: idx), elem s P (1 :: idx)).

Section AccPair.
Context {T : Type} {DT : Dflt T}.

Lemma pelem_pr (s : store T) P idx : wft P -> pairt P -> inb (t_shape (sq P)) idx ->
  pelem s P idx = pr (fl (s (th P (etile (sq P) idx)))) (eoff (sq P) idx).
Proof.
  intros HP Hp Hi. unfold pelem, pr, elem. rewrite !sq_etile, !sq_eoff by (assumption || lia).
  f_equal; f_equal; lia.
Qed.

Theorem acc_pair {X} (P : tensor) (xs : list X) (out : X -> Z) (md : X -> mode)
    (pre post scr : X -> list handle) (body : X -> list (buf T) -> res (list (buf T)))
    (G : X -> list (buf T) -> list (buf T) -> Z -> T * T -> T * T) s r :
  wft P -> pairt P -> stored KF s P ->
  r = Ok (map (fun x => mkTask (mk_acc (pre x) (th P (out x)) (md x) (post x) (scr x)) (body x)) xs) ->
  (forall x, In x xs -> 0 <= out x < ntiles P) ->
  (forall x, In x xs -> md x = MW \/ md x = MRW) ->
  (forall x h, In x xs -> In h (pre x) \/ In h (post x) \/ In h (scr x) -> ~ In h (tile_handles P)) ->
  (forall x b1 b2 o v v', In x xs -> md x = MW -> G x b1 b2 o v = G x b1 b2 o v') ->
  (forall x st d sc, In x xs -> tinv s st -> zlen d = tsz P (out x) ->
     map ty sc = map (fun h => ty (s h)) (scr x) ->
     exists sc', body x (map st (pre x) ++ BF d :: map st (post x) ++ sc) =
       Ok (map st (pre x) ++ BF (ptab (tsz (sq P) (out x)) (fun c => G x (map st (pre x)) (map st (post x)) c (pr d c)))
             :: map st (post x) ++ sc') /\
       List.length sc' = List.length (scr x)) ->
  runs r s (fun s' =>
    (forall idx, inb (t_shape (sq P)) idx ->
       pelem s' P idx = fold_left (fun v x => G x (map s (pre x)) (map s (post x)) (eoff (sq P) idx) v)
                          (filter (fun x => out x =? etile (sq P) idx) xs) (pelem s P idx)) /\
    frame [P] s s').
Proof.
  intros HP Hp Hst Hr Ho Hm Hsep Hw Hb. pose proof (sq_wft P HP Hp) as HQ.
  assert (Hh : forall d : list T, forall i, zlen d = tsz P i -> zlen d / 2 = tsz (sq P) i).
  { intros d i E. rewrite E, sq_tsz by assumption. rewrite Z.mul_comm. apply Z.div_mul. lia. }
  assert (Hpos : forall i, 0 <= i < ntiles P -> 0 < tsz (sq P) i).
  { intros i Hi. apply tsz_pos; [assumption|]. rewrite sq_ntiles; assumption. }
  eapply runs_weaken; [apply (acc_runs P xs out md pre post scr body
    (fun x b1 b2 d => ptab (zlen d / 2) (fun c => G x b1 b2 c (pr d c))) s r); auto|].
  - intros x b1 b2 d d' Hx Hmd Hl. rewrite Hl. unfold ptab. apply ztab_ext. intros i _.
    rewrite (Hw x b1 b2 (i / 2) (pr d (i / 2)) (pr d' (i / 2))) by assumption. reflexivity.
  - intros x st d Hx Hti Hd. rewrite (Hh d (out x)) by assumption. rewrite zlen_ptab; [symmetry; apply sq_tsz; assumption|].
    apply Z.lt_le_incl, Hpos, Ho, Hx.
  - intros x st d sc Hx Hti Hd Hsc. destruct (Hb x st d sc Hx Hti Hd Hsc) as (sc' & E & Hl).
    exists sc'. rewrite (Hh d (out x)) by assumption. split; assumption.
  - intros s' _ [H1 H2]. split; [|assumption]. intros idx Hi.
    pose proof (etile_bound (sq P) idx HQ Hi) as Hi'. rewrite sq_ntiles in Hi' by assumption.
    pose proof (eoff_bound (sq P) idx HQ Hi) as Ho'.
    rewrite !pelem_pr by assumption. rewrite H1 by assumption. cbn [fl].
    destruct (ty_BF _ _ (Hst _ Hi')) as (l & El & Hl). rewrite El. cbn [fl].
    generalize (filter (fun x => out x =? etile (sq P) idx) xs). intros ys.
    assert (Gn : forall ys (d : list T), zlen d = tsz P (etile (sq P) idx) ->
      pr (fold_left (fun d x => ptab (zlen d / 2) (fun c => G x (map s (pre x)) (map s (post x)) c (pr d c))) ys d) (eoff (sq P) idx)
      = fold_left (fun v x => G x (map s (pre x)) (map s (post x)) (eoff (sq P) idx) v) ys (pr d (eoff (sq P) idx))).
    { clear ys. induction ys as [|y ys IH]; intros d Hd; [reflexivity|]. cbn [fold_left]. rewrite IH.
      - rewrite (Hh d _ Hd). rewrite pr_ptab by lia. reflexivity.
      - rewrite (Hh d _ Hd). rewrite zlen_ptab; [symmetry; apply sq_tsz; assumption|]. apply Z.lt_le_incl, Hpos. assumption. }
    apply Gn. assumption.
Qed.
End AccPair.

(** ** Kernels *)
Section K.
Context {T : Type} {O : Ops T}.
Local Notation vec := (list T).

(** state of maxsumexp after the values f 0, ..., f (n-1) *)
Definition mse (n : Z) (f : Z -> T) : T * T * T :=
  fold_left (fun st l => mse_step (f (1 + l)) st) (zrange (n - 1)) (f 0, o_one, o_zero).
(** combination with the old pair *)
Definition mse_upd (st : T * T * T) (old : T * T) : T * T :=
  let '(max, sum, c) := st in
  let '(max_old, sum_old) := old in
  if o_isinf max then old
  else if o_eqb sum_old o_zero then (max, sum)
  else if o_ltb max_old max then
    (max, o_add sum (o_sub (o_mul sum_old (o_exp (o_sub max_old max))) c))
  else
    let tmp := o_exp (o_sub max max_old) in
    (max_old, o_add (o_mul sum tmp) (o_sub sum_old (o_mul c tmp))).

Lemma mse_ext n f g : 0 < n -> (forall l, 0 <= l < n -> f l = g l) -> mse n f = mse n g.
Proof.
  intros Hn H. unfold mse. rewrite (H 0) by lia. apply fold_left_ext. intros a x Hx. apply zrange_In in Hx.
  rewrite H by lia. reflexivity.
Qed.

Lemma wr2 (d : vec) c a b : 0 <= 2 * c -> 2 * c + 1 < zlen d ->
  exists d', (d <- wr d (2 * c) a ;; wr d (2 * c + 1) b) = Ok d' /\ zlen d' = zlen d /\ pr d' c = (a, b) /\
    (forall i, 0 <= i < zlen d -> i <> 2 * c -> i <> 2 * c + 1 -> zn d' i = zn d i).
Proof.
  intros H1 H2. destruct (wr_ok d (2 * c) a) as (d1 & E1 & L1 & Z1); [lia|]. rewrite E1. bnd.
  destruct (wr_ok d1 (2 * c + 1) b) as (d2 & E2 & L2 & Z2); [lia|]. exists d2. split; [assumption|]. split; [lia|]. split.
  - unfold pr. rewrite !Z2, !Z1 by lia. rewrite !Z.eqb_refl. destruct (Z.eqb_spec (2 * c) (2 * c + 1)); [lia|reflexivity].
  - intros i Hi N1 N2. rewrite Z2, Z1 by lia. destruct (Z.eqb_spec i (2 * c + 1)); [lia|]. destruct (Z.eqb_spec i (2 * c)); [lia|reflexivity].
Qed.
Lemma wr1 (d : vec) c b : 0 <= 2 * c -> 2 * c + 1 < zlen d ->
  exists d', wr d (2 * c + 1) b = Ok d' /\ zlen d' = zlen d /\ pr d' c = (zn d (2 * c), b) /\
    (forall i, 0 <= i < zlen d -> i <> 2 * c -> i <> 2 * c + 1 -> zn d' i = zn d i).
Proof.
  intros H1 H2. destruct (wr_ok d (2 * c + 1) b) as (d1 & E1 & L1 & Z1); [lia|]. exists d1. split; [assumption|]. split; [lia|]. split.
  - unfold pr. rewrite !Z1 by lia. rewrite Z.eqb_refl. destruct (Z.eqb_spec (2 * c) (2 * c + 1)); [lia|reflexivity].
  - intros i Hi N1 N2. rewrite Z1 by lia. destruct (Z.eqb_spec i (2 * c + 1)); [lia|reflexivity].
Qed.

Lemma k_maxsumexp_ok m n k src dst :
  0 < m -> 0 < n -> 0 < k -> zlen src = m * (k * n) -> zlen dst = 2 * (m * n) ->
  k_maxsumexp m n k src dst = Ok (ptab (m * n) (fun c =>
    mse_upd (mse k (fun l => zn src (cz [m; n] 0 c + m * (l + k * cz [m; n] 1 c)))) (pr dst c))).
Proof.
  intros Hm Hn Hk Hs Hd. unfold k_maxsumexp. cbv zeta.
  apply (pair_nest m n _ (fun i1 i2 old => mse_upd (mse k (fun l => zn src (i1 + m * (l + k * i2)))) old)); auto.
  intros i2 i1 d H2 H1 Hl Hb. replace (i2 * m + i1) with (i1 + m * i2) by ring. set (c := i1 + m * i2) in *.
  set (f := fun l => zn src (i1 + m * (l + k * i2))).
  assert (Hf : forall l, 0 <= l < k -> rd src (i2 * (m * k) + i1 + l * m) = Ok (f l)).
  { intros l H0. unfold f. replace (i2 * (m * k) + i1 + l * m) with (i1 + m * (l + k * i2)) by ring.
    destruct (cz3 m k n i1 l i2 H1 H0 H2) as (_ & _ & _ & Cb). apply rd_ok. lia. }
  replace (i2 * (m * k) + i1) with (i2 * (m * k) + i1 + 0 * m) by ring. rewrite Hf by lia. bnd.
  rewrite (for_ext 1 k _ (fun l st => Ok (mse_step (f l) st))).
  2:{ intros l st Hl'. replace (i2 * (m * k) + i1 + 0 * m + l * m) with (i2 * (m * k) + i1 + l * m) by ring.
      rewrite Hf by lia. reflexivity. }
  rewrite for_pure. bnd. fold (mse k f). unfold mse_upd, pr at 2. destruct (mse k f) as [[mx sm] cc].
  destruct (o_isinf mx).
  { exists d. split; [reflexivity|]. split; [reflexivity|]. split; [reflexivity|auto]. }
  rewrite rd_ok' by lia. destruct (o_eqb (zn d (2 * c + 1)) o_zero).
  { apply wr2; lia. }
  rewrite rd_ok' by lia. destruct (o_ltb (zn d (2 * c)) mx).
  { apply wr2; lia. }
  apply wr1; lia.
Qed.

Definition sn (n : Z) (f : Z -> T) (p : T * T) : T * T * T :=
  fold_left (fun st l => sn_step (f l) st) (zrange n) (fst p, snd p, o_one).
Definition sn_upd (st : T * T * T) : T * T := let '(sum, scale, ssq) := st in (sum, o_mul scale (o_sqrt ssq)).
Lemma sn_ext n f g p : (forall l, 0 <= l < n -> f l = g l) -> sn n f p = sn n g p.
Proof. intros H. unfold sn. apply fold_left_ext. intros a x Hx. apply zrange_In in Hx. rewrite H by lia. reflexivity. Qed.

Lemma k_sumnorm_ok m n k src dst :
  0 < m -> 0 < n -> 0 < k -> zlen src = m * (k * n) -> zlen dst = 2 * (m * n) ->
  k_sumnorm m n k src dst = Ok (ptab (m * n) (fun c =>
    sn_upd (sn k (fun l => zn src (cz [m; n] 0 c + m * (l + k * cz [m; n] 1 c))) (pr dst c)))).
Proof.
  intros Hm Hn Hk Hs Hd. unfold k_sumnorm. cbv zeta.
  apply (pair_nest m n _ (fun i1 i2 old => sn_upd (sn k (fun l => zn src (i1 + m * (l + k * i2))) old))); auto.
  intros i2 i1 d H2 H1 Hl Hb. replace (i2 * m + i1) with (i1 + m * i2) by ring. set (c := i1 + m * i2) in *.
  set (f := fun l => zn src (i1 + m * (l + k * i2))).
  rewrite !rd_ok' by lia.
  rewrite (for_fold k _ (fun l st => sn_step (f l) st)); [|lia|].
  - rewrite bind_Ok. unfold sn, pr at 2. cbn [fst snd].
    destruct (fold_left _ _ _) as [[sum scale] ssq]. cbn [sn_upd]. apply wr2; lia.
  - intros l st H0. unfold f. replace (i2 * (m * k) + i1 + l * m) with (i1 + m * (l + k * i2)) by ring.
    destruct (cz3 m k n i1 l i2 H1 H0 H2) as (_ & _ & _ & Cb). rewrite rd_ok' by lia. reflexivity.
Qed.

(** broadcast of pairs *)
Lemma pair_bc_nest m n k (F : T * T -> Z -> T -> T) (ms : vec) (B : Z -> Z -> Z -> vec -> res vec) dst :
  0 < m -> 0 < n -> 0 < k -> zlen ms = 2 * (m * n) -> zlen dst = m * (k * n) ->
  (forall i2 i1 i0 d, 0 <= i2 < n -> 0 <= i1 < k -> 0 <= i0 < m -> zlen d = m * (k * n) ->
     0 <= i0 + m * (i1 + k * i2) < m * (k * n) -> 0 <= i0 + m * i2 < m * n ->
     B i2 i1 i0 d = wr d (i0 + m * (i1 + k * i2)) (F (pr ms (i0 + m * i2)) (i0 + m * (i1 + k * i2)) (zn d (i0 + m * (i1 + k * i2))))) ->
  for_ 0 n (fun i2 => for_ 0 k (fun i1 => for_ 0 m (fun i0 d => B i2 i1 i0 d))) dst
  = Ok (ztab (m * (k * n)) (fun j => F (pr ms (cz [m; k; n] 0 j + m * cz [m; k; n] 2 j)) j (zn dst j))).
Proof.
  intros Hm Hn Hk Hs Hd HB.
  apply (nest3 (m * (k * n)) n k m (cz [m; k; n] 2) (cz [m; k; n] 1) (cz [m; k; n] 0)
    (fun i2 i1 i0 => i0 + m * (i1 + k * i2))
    (fun j old => F (pr ms (cz [m; k; n] 0 j + m * cz [m; k; n] 2 j)) j old)
    _ (fun i2 i1 => for_ 0 m (fun i0 d => B i2 i1 i0 d)) B); try lia; try reflexivity.
  - intros i2 i1 i0 d H2 H1 H0 Hl. destruct (cz3 m k n i0 i1 i2 H0 H1 H2) as (C0 & C1 & C2 & Cb).
    destruct (cz2 m n i0 i2 H0 H2) as (_ & _ & Cb2).
    rewrite HB by assumption. rewrite C0, C2. reflexivity.
  - intros i2 i1 i0 H2 H1 H0. destruct (cz3 m k n i0 i1 i2 H0 H1 H2) as (C0 & C1 & C2 & Cb). auto.
  - intros j Hj. destruct (cz3_inv m k n j Hm Hk Hn Hj) as (C0 & C1 & C2 & Cb). auto.
Qed.

Definition smax (alpha : T) (p : T * T) (val : T) : T :=
  if negb (o_isinf val) then o_div (o_mul alpha (o_exp (o_sub val (fst p)))) (snd p) else o_zero.

Lemma k_softmax_ok m n k ms src alpha dst :
  0 < m -> 0 < n -> 0 < k -> zlen ms = 2 * (m * n) -> zlen src = m * (k * n) -> zlen dst = m * (k * n) ->
  k_softmax m n k ms src alpha dst = Ok (ztab (m * (k * n)) (fun j =>
    smax alpha (pr ms (cz [m; k; n] 0 j + m * cz [m; k; n] 2 j)) (zn src j))).
Proof.
  intros Hm Hn Hk Hs Hs2 Hd. unfold k_softmax. cbv zeta.
  apply (pair_bc_nest m n k (fun p j _ => smax alpha p (zn src j))); auto.
  intros i2 i1 i0 d H2 H1 H0 Hl Hb Hb2. replace (2 * m * i2 + 2 * i0) with (2 * (i0 + m * i2)) by ring.
  rewrite !rd_ok' by lia. unfold smax, pr. cbn [fst snd]. destruct (negb _); reflexivity.
Qed.
Lemma k_softmax_inplace_ok m n k ms alpha dst :
  0 < m -> 0 < n -> 0 < k -> zlen ms = 2 * (m * n) -> zlen dst = m * (k * n) ->
  k_softmax_inplace m n k ms alpha dst = Ok (ztab (m * (k * n)) (fun j =>
    smax alpha (pr ms (cz [m; k; n] 0 j + m * cz [m; k; n] 2 j)) (zn dst j))).
Proof.
  intros Hm Hn Hk Hs Hd. unfold k_softmax_inplace. cbv zeta.
  apply (pair_bc_nest m n k (fun p j v => smax alpha p v)); auto.
  intros i2 i1 i0 d H2 H1 H0 Hl Hb Hb2. replace (2 * m * i2 + 2 * i0) with (2 * (i0 + m * i2)) by ring.
  rewrite !rd_ok' by lia. unfold smax, pr. cbn [fst snd]. destruct (negb _); reflexivity.
Qed.

(** value written by normalize *)
Definition nrmz (l : Z) (eps gamma beta : T) (p : T * T) (val : T) : T :=
  let invl := o_div o_one (o_ofZ l) in
  o_add (o_mul (o_div (o_sub val (o_mul (fst p) invl))
    (norm_dev invl (o_sqrt invl) (o_sqrt eps) (fst p) (snd p))) gamma) beta.
Lemma k_normalize_ok m n k l eps gb sn dst :
  0 < m -> 0 < n -> 0 < k -> zlen gb = 2 -> zlen sn = 2 * (m * n) -> zlen dst = m * (k * n) ->
  k_normalize m n k l eps gb sn dst = Ok (ztab (m * (k * n)) (fun j =>
    nrmz l eps (zn gb 0) (zn gb 1) (pr sn (cz [m; k; n] 0 j + m * cz [m; k; n] 2 j)) (zn dst j))).
Proof.
  intros Hm Hn Hk Hg Hs Hd. unfold k_normalize. cbv zeta.
  apply (pair_bc_nest m n k (fun p j v => nrmz l eps (zn gb 0) (zn gb 1) p v)); auto.
  intros i2 i1 i0 d H2 H1 H0 Hl Hb Hb2. replace (2 * m * i2 + 2 * i0) with (2 * (i0 + m * i2)) by ring.
  rewrite !rd_ok' by lia. reflexivity.
Qed.

Lemma k_logsumexp_ok n ms dst : 0 <= n -> zlen ms = 2 * n -> zlen dst = n ->
  k_logsumexp n ms dst = Ok (ztab n (fun j => o_add (fst (pr ms j)) (o_log (snd (pr ms j))))).
Proof.
  intros Hn Hs Hd. unfold k_logsumexp.
  apply (map_loop n (fun j _ => o_add (fst (pr ms j)) (o_log (snd (pr ms j))))); [assumption|].
  intros i d Hi Hl. rewrite !rd_ok' by lia. reflexivity.
Qed.

(** accumulate_maxsumexp on one pair *)
Definition acc_mse (src dst : T * T) : T * T :=
  if o_eqb (snd src) o_zero then dst
  else if o_eqb (snd dst) o_zero then src
  else if o_ltb (fst dst) (fst src) then
    (fst src, o_add (snd src) (o_mul (snd dst) (o_exp (o_sub (fst dst) (fst src)))))
  else (fst dst, o_add (snd dst) (o_mul (snd src) (o_exp (o_sub (fst src) (fst dst))))).
Lemma k_accumulate_maxsumexp_ok n src dst : 0 < n -> zlen src = 2 * n -> zlen dst = 2 * n ->
  k_accumulate_maxsumexp n src dst = Ok (ptab n (fun c => acc_mse (pr src c) (pr dst c))).
Proof.
  intros Hn Hs Hd. unfold k_accumulate_maxsumexp. cbv zeta.
  match goal with |- for_ 0 n ?b dst = _ => set (B := b) end.
  transitivity (for_ 0 n (fun i2 => for_ 0 1 (fun i1 d => B (i1 + i2) d)) dst).
  { apply for_ext. intros i st Hi. rewrite (for_head 0 1) by lia. rewrite Z.add_0_l.
    destruct (B i st); [|reflexivity|reflexivity]. bnd. rewrite for_empty by lia. reflexivity. }
  replace (ptab n (fun c => acc_mse (pr src c) (pr dst c))) with
    (ptab (1 * n) (fun c => (fun i1 i2 => acc_mse (pr src (i1 + 1 * i2))) (cz [1; n] 0 c) (cz [1; n] 1 c) (pr dst c))).
  2:{ rewrite Z.mul_1_l. unfold ptab. apply ztab_ext. intros i Hi.
      assert (Hc : 0 <= i / 2 < n) by (split; [apply Z.div_pos; lia|apply Z.div_lt_upper_bound; lia]).
      destruct (cz2_inv 1 n (i / 2)) as (_ & _ & C); [lia|lia|lia|]. rewrite C. reflexivity. }
  apply (pair_nest 1 n (fun i2 i1 d => B (i1 + i2) d) (fun i1 i2 => acc_mse (pr src (i1 + 1 * i2))) dst); [lia|lia|lia|].
  intros i2 i1 d H2 H1 Hl Hb. replace (i1 + i2) with (i1 + 1 * i2) by lia. set (c := i1 + 1 * i2) in *. unfold B. cbv beta.
  rewrite rd_ok' by lia. unfold acc_mse, pr at 2 3 4 5 6 7 8 9 10 11 12 13 14 15 16. cbn [fst snd].
  destruct (o_eqb (zn src (2 * c + 1)) o_zero).
  { exists d. split; [reflexivity|]. split; [reflexivity|]. split; [reflexivity|auto]. }
  rewrite !rd_ok' by lia.
  destruct (o_eqb (zn d (2 * c + 1)) o_zero).
  { apply wr2; lia. }
  destruct (o_ltb (zn d (2 * c)) (zn src (2 * c))); [|apply wr1; lia].
  destruct (wr_ok d (2 * c + 1) (o_add (zn src (2 * c + 1)) (o_mul (zn d (2 * c + 1)) (o_exp (o_sub (zn d (2 * c)) (zn src (2 * c))))))) as (d1 & E1 & L1 & Z1); [lia|].
  rewrite E1. bnd. destruct (wr_ok d1 (2 * c) (zn src (2 * c))) as (d2 & E2 & L2 & Z2); [lia|].
  exists d2. split; [assumption|]. split; [lia|]. split.
  - unfold pr. rewrite !Z2, !Z1 by lia. rewrite !Z.eqb_refl. destruct (Z.eqb_spec (2 * c + 1) (2 * c)); [lia|reflexivity].
  - intros i Hi N1 N2. rewrite Z2, Z1 by lia. destruct (Z.eqb_spec i (2 * c + 1)); [lia|]. destruct (Z.eqb_spec i (2 * c)); [lia|reflexivity].
Qed.
End K.
