(** * Proofs about the slice operations, for any scalar operations *)
From Verif Require Import Base Spec Geometry Traits TraitsProofs Runtime Ops TensorSem ElemGeneric OneOut
  KernelsElem ElemOps Axis AccRuns Loops SliceOps SliceGeo.

Section P.
Context {T : Type} {O : Ops T}.
Local Notation vec := (list T).

(** *** Kernels *)
Lemma bool_for {S} (b : bool) n (f g : Z -> S -> res S) s :
  (if b then for_ 0 n f s else for_ 0 n g s) = for_ 0 n (fun i s => if b then f i s else g i s) s.
Proof. destruct b; reflexivity. Qed.

(** Loop nest of the broadcasting slice kernels. *)
Lemma slice_nest m n k (F : T -> Z -> T -> T) (src : vec) (B : Z -> Z -> T -> Z -> vec -> res vec) dst :
  0 < m -> 0 < n -> 0 < k -> zlen src = m * n -> zlen dst = m * (k * n) ->
  (forall i2 i1 x i0 d, 0 <= i2 < n -> 0 <= i1 < m -> 0 <= i0 < k -> zlen d = m * (k * n) ->
     0 <= i1 + m * (i0 + k * i2) < m * (k * n) ->
     B i2 i1 x i0 d = wr d (i1 + m * (i0 + k * i2)) (F x (i1 + m * (i0 + k * i2)) (zn d (i1 + m * (i0 + k * i2))))) ->
  for_ 0 n (fun i2 => for_ 0 m (fun i1 d => bind (rd src (i2 * m + i1)) (fun x => for_ 0 k (B i2 i1 x) d))) dst
  = Ok (ztab (m * (k * n)) (fun j => F (zn src (cz [m; k; n] 0 j + m * cz [m; k; n] 2 j)) j (zn dst j))).
Proof.
  intros Hm Hn Hk Hs Hd HB.
  apply (nest3 (m * (k * n)) n m k (cz [m; k; n] 2) (cz [m; k; n] 0) (cz [m; k; n] 1)
    (fun i2 i1 i0 => i1 + m * (i0 + k * i2))
    (fun j old => F (zn src (cz [m; k; n] 0 j + m * cz [m; k; n] 2 j)) j old)
    _ (fun i2 i1 d => bind (rd src (i2 * m + i1)) (fun x => for_ 0 k (B i2 i1 x) d))
    (fun i2 i1 => B i2 i1 (zn src (i1 + m * i2)))); try lia.
  - reflexivity.
  - intros i2 i1 d H2 H1 Hl. rewrite rd_ok' by (clear - H2 H1 Hs; nia). do 3 f_equal. ring.
  - intros i2 i1 i0 d H2 H1 H0 Hl. destruct (cz3 m k n i1 i0 i2 H1 H0 H2) as (C0 & C1 & C2 & Cb).
    rewrite HB by assumption. rewrite C0, C2. reflexivity.
  - intros i2 i1 i0 H2 H1 H0. destruct (cz3 m k n i1 i0 i2 H1 H0 H2) as (C0 & C1 & C2 & Cb). auto.
  - intros j Hj. destruct (cz3_inv m k n j Hm Hk Hn Hj) as (C0 & C1 & C2 & Cb). auto.
Qed.

Definition bc (beta x old : T) : T := if o_eqb beta o_zero then x else o_add (o_mul beta old) x.

Lemma k_add_slice_ok m n k alpha src beta dst :
  0 < m -> 0 < n -> 0 < k -> zlen src = m * n -> zlen dst = m * (k * n) ->
  k_add_slice m n k alpha src beta dst = Ok (ztab (m * (k * n)) (fun j =>
    bc beta (o_mul alpha (zn src (cz [m; k; n] 0 j + m * cz [m; k; n] 2 j))) (zn dst j))).
Proof.
  intros Hm Hn Hk Hs Hd. unfold k_add_slice. cbv zeta.
  erewrite for_ext; [apply (slice_nest m n k (fun x j old => bc beta (o_mul alpha x) old) src
    (fun i2 i1 x i0 d => if o_eqb beta o_zero then wr d (i2 * (m * k) + i1 + i0 * m) (o_mul alpha x)
       else v <- rd d (i2 * (m * k) + i1 + i0 * m) ;;
            wr d (i2 * (m * k) + i1 + i0 * m) (o_add (o_mul beta v) (o_mul alpha x)))); auto|].
  - intros i2 i1 x i0 d H2 H1 H0 Hl Hb.
    replace (i2 * (m * k) + i1 + i0 * m) with (i1 + m * (i0 + k * i2)) by ring.
    unfold bc. destruct (o_eqb beta o_zero); [reflexivity|]. rewrite rd_ok' by lia. reflexivity.
  - intros i2 st H2. apply for_ext. intros i1 d H1.
    destruct (rd src (i2 * m + i1)); [|reflexivity|reflexivity]. rewrite !bind_Ok. apply bool_for.
Qed.

Lemma k_add_slice3_ok m n k alpha src1 beta src2 dst :
  0 < m -> 0 < n -> 0 < k -> zlen src1 = m * n -> zlen src2 = m * (k * n) -> zlen dst = m * (k * n) ->
  k_add_slice3 m n k alpha src1 beta src2 dst = Ok (ztab (m * (k * n)) (fun j =>
    bc beta (o_mul alpha (zn src1 (cz [m; k; n] 0 j + m * cz [m; k; n] 2 j))) (zn src2 j))).
Proof.
  intros Hm Hn Hk Hs Hs2 Hd. unfold k_add_slice3. cbv zeta.
  erewrite for_ext; [apply (slice_nest m n k (fun x j _ => bc beta (o_mul alpha x) (zn src2 j)) src1
    (fun i2 i1 x i0 d => if o_eqb beta o_zero then wr d (i2 * (m * k) + i1 + i0 * m) (o_mul alpha x)
       else v <- rd src2 (i2 * (m * k) + i1 + i0 * m) ;;
            wr d (i2 * (m * k) + i1 + i0 * m) (o_add (o_mul beta v) (o_mul alpha x)))); auto|].
  - intros i2 i1 x i0 d H2 H1 H0 Hl Hb.
    replace (i2 * (m * k) + i1 + i0 * m) with (i1 + m * (i0 + k * i2)) by ring.
    unfold bc. destruct (o_eqb beta o_zero); [reflexivity|]. rewrite rd_ok' by lia. reflexivity.
  - intros i2 st H2. apply for_ext. intros i1 d H1.
    destruct (rd src1 (i2 * m + i1)); [|reflexivity|reflexivity]. rewrite !bind_Ok. apply bool_for.
Qed.

Lemma k_prod_slice_ok m n k alpha src dst :
  0 < m -> 0 < n -> 0 < k -> zlen src = m * n -> zlen dst = m * (k * n) ->
  k_prod_slice m n k alpha src dst = Ok (ztab (m * (k * n)) (fun j =>
    o_mul (zn dst j) (o_mul alpha (zn src (cz [m; k; n] 0 j + m * cz [m; k; n] 2 j))))).
Proof.
  intros Hm Hn Hk Hs Hd. unfold k_prod_slice. cbv zeta.
  apply (slice_nest m n k (fun x j old => o_mul old (o_mul alpha x)) src
    (fun i2 i1 x i0 d => 
       v <- rd d (i2 * (m * k) + i1 + i0 * m) ;;
            wr d (i2 * (m * k) + i1 + i0 * m) (o_mul v (o_mul alpha x)))); auto.
  intros i2 i1 x i0 d H2 H1 H0 Hl Hb.
  replace (i2 * (m * k) + i1 + i0 * m) with (i1 + m * (i0 + k * i2)) by ring.
  rewrite rd_ok' by lia. reflexivity.
Qed.

(** Loop nest of the reducing slice kernels. *)
Lemma slice_nest2 m n (F : Z -> Z -> T -> T) (B : Z -> Z -> vec -> res vec) dst :
  0 < m -> 0 < n -> zlen dst = m * n ->
  (forall i2 i1 d, 0 <= i2 < n -> 0 <= i1 < m -> zlen d = m * n -> 0 <= i1 + m * i2 < m * n ->
     B i2 i1 d = wr d (i1 + m * i2) (F i1 i2 (zn d (i1 + m * i2)))) ->
  for_ 0 n (fun i2 => for_ 0 m (fun i1 d => B i2 i1 d)) dst
  = Ok (ztab (m * n) (fun j => F (cz [m; n] 0 j) (cz [m; n] 1 j) (zn dst j))).
Proof.
  intros Hm Hn Hd HB.
  apply (nest2 (m * n) n m (cz [m; n] 1) (cz [m; n] 0) (fun i2 i1 => i1 + m * i2)
    (fun j old => F (cz [m; n] 0 j) (cz [m; n] 1 j) old)
    _ B); try lia.
  - reflexivity.
  - intros i2 i1 d H2 H1 Hl. destruct (cz2 m n i1 i2 H1 H2) as (C0 & C1 & Cb).
    rewrite HB by assumption. rewrite C0, C1. reflexivity.
  - intros i2 i1 H2 H1. destruct (cz2 m n i1 i2 H1 H2) as (C0 & C1 & Cb). auto.
  - intros j Hj. destruct (cz2_inv m n j Hm Hn Hj) as (C0 & C1 & Cb). auto.
Qed.

(** Pure accumulation loops *)
Lemma for_fold {S} n (body : Z -> S -> res S) (f : Z -> S -> S) s : 0 <= n ->
  (forall i s, 0 <= i < n -> body i s = Ok (f i s)) ->
  for_ 0 n body s = Ok (fold_left (fun s i => f i s) (zrange n) s).
Proof.
  intros Hn H. rewrite (for_ext 0 n body (fun i s => Ok (f i s))) by assumption. rewrite for_pure.
  rewrite Z.sub_0_r. reflexivity.
Qed.

Definition ksum (n : Z) (f : Z -> T) : T * T := fold_left (fun s i => kahan (f i) s) (zrange n) (o_zero, o_zero).
Definition kres (alpha beta : T) (p : T * T) (old : T) : T :=
  if o_eqb beta o_zero then o_mul alpha (fst p)
  else o_add (o_sub (o_mul beta old) (o_mul alpha (snd p))) (o_mul alpha (fst p)).

Lemma k_sum_slice_ok m n k alpha src beta dst :
  0 < m -> 0 < n -> 0 < k -> zlen src = m * (k * n) -> zlen dst = m * n ->
  k_sum_slice m n k alpha src beta dst = Ok (ztab (m * n) (fun j =>
    kres alpha beta (ksum k (fun l => zn src (cz [m; n] 0 j + m * (l + k * cz [m; n] 1 j)))) (zn dst j))).
Proof.
  intros Hm Hn Hk Hs Hd. unfold k_sum_slice. cbv zeta.
  apply (slice_nest2 m n (fun i1 i2 old => kres alpha beta (ksum k (fun l => zn src (i1 + m * (l + k * i2)))) old)); auto.
  intros i2 i1 d H2 H1 Hl Hb.
  rewrite (for_fold k _ (fun l st => kahan (zn src (i1 + m * (l + k * i2))) st)); [|lia|].
  - rewrite bind_Ok. fold (ksum k (fun l => zn src (i1 + m * (l + k * i2)))).
    destruct (ksum k (fun l => zn src (i1 + m * (l + k * i2)))) as [sum c]. unfold kres. cbn [fst snd].
    replace (i2 * m + i1) with (i1 + m * i2) by ring.
    destruct (o_eqb beta o_zero); [reflexivity|]. rewrite rd_ok' by lia. reflexivity.
  - intros l st H0. replace (i2 * (m * k) + i1 + l * m) with (i1 + m * (l + k * i2)) by ring.
    destruct (cz3 m k n i1 l i2 H1 H0 H2) as (_ & _ & _ & Cb). rewrite rd_ok' by lia. reflexivity.
Qed.

Lemma k_sumprod_slice_ok m n k alpha src1 src2 beta dst :
  0 < m -> 0 < n -> 0 < k -> zlen src1 = m * (k * n) -> zlen src2 = m * (k * n) -> zlen dst = m * n ->
  k_sumprod_slice m n k alpha src1 src2 beta dst = Ok (ztab (m * n) (fun j =>
    kres alpha beta (ksum k (fun l => o_mul (zn src1 (cz [m; n] 0 j + m * (l + k * cz [m; n] 1 j)))
                                            (zn src2 (cz [m; n] 0 j + m * (l + k * cz [m; n] 1 j))))) (zn dst j))).
Proof.
  intros Hm Hn Hk Hs Hs2 Hd. unfold k_sumprod_slice. cbv zeta.
  apply (slice_nest2 m n (fun i1 i2 old => kres alpha beta
    (ksum k (fun l => o_mul (zn src1 (i1 + m * (l + k * i2))) (zn src2 (i1 + m * (l + k * i2))))) old)); auto.
  intros i2 i1 d H2 H1 Hl Hb.
  rewrite (for_fold k _ (fun l st => kahan (o_mul (zn src1 (i1 + m * (l + k * i2))) (zn src2 (i1 + m * (l + k * i2)))) st)); [|lia|].
  - rewrite bind_Ok. match goal with |- context [fold_left ?f ?a ?b] => change (fold_left f a b) with (ksum k (fun l => o_mul (zn src1 (i1 + m * (l + k * i2))) (zn src2 (i1 + m * (l + k * i2))))) end.
    destruct (ksum k _) as [sum c]. unfold kres. cbn [fst snd].
    replace (i2 * m + i1) with (i1 + m * i2) by ring.
    destruct (o_eqb beta o_zero); [reflexivity|]. rewrite rd_ok' by lia. reflexivity.
  - intros l st H0. replace (i2 * (m * k) + i1 + l * m) with (i1 + m * (l + k * i2)) by ring.
    destruct (cz3 m k n i1 l i2 H1 H0 H2) as (_ & _ & _ & Cb). rewrite !rd_ok' by lia. reflexivity.
Qed.

Definition nsum (n : Z) (f : Z -> T) : T * T * T :=
  fold_left (fun s i => ssq_step (f i) s) (zrange n) (o_zero, o_zero, o_zero).
Definition nres (alpha beta : T) (p : T * T * T) (old : T) : T :=
  norm_result beta old (o_mul (fst (fst p)) (o_abs alpha)) (snd (fst p)) (snd p).

Lemma k_norm_slice_ok m n k alpha src beta dst :
  0 < m -> 0 < n -> 0 < k -> zlen src = m * (k * n) -> zlen dst = m * n ->
  k_norm_slice m n k alpha src beta dst = Ok (ztab (m * n) (fun j =>
    nres alpha beta (nsum k (fun l => zn src (cz [m; n] 0 j + m * (l + k * cz [m; n] 1 j)))) (zn dst j))).
Proof.
  intros Hm Hn Hk Hs Hd. unfold k_norm_slice. cbv zeta.
  apply (slice_nest2 m n (fun i1 i2 old => nres alpha beta (nsum k (fun l => zn src (i1 + m * (l + k * i2)))) old)); auto.
  intros i2 i1 d H2 H1 Hl Hb.
  rewrite (for_fold k _ (fun l st => ssq_step (zn src (i1 + m * (l + k * i2))) st)); [|lia|].
  - rewrite bind_Ok. fold (nsum k (fun l => zn src (i1 + m * (l + k * i2)))).
    destruct (nsum k (fun l => zn src (i1 + m * (l + k * i2)))) as [[mx ssq] c]. unfold nres. cbn [fst snd].
    replace (i2 * m + i1) with (i1 + m * i2) by ring. rewrite rd_ok' by lia. reflexivity.
  - intros l st H0. replace (i2 * (m * k) + i1 + l * m) with (i1 + m * (l + k * i2)) by ring.
    destruct (cz3 m k n i1 l i2 H1 H0 H2) as (_ & _ & _ & Cb). rewrite rd_ok' by lia. reflexivity.
Qed.

(** *** Tensor level *)
Lemma buf_at (s st : store T) k t i : tinv s st -> stored k s t -> 0 <= i < ntiles t -> ty (st (th t i)) = (k, tsz t i).
Proof. intros H1 H2 H3. rewrite H1. apply H2; assumption. Qed.
Lemma bufF (s st : store T) t i : tinv s st -> stored KF s t -> 0 <= i < ntiles t ->
  exists l : vec, st (th t i) = BF l /\ zlen l = tsz t i.
Proof. intros H1 H2 H3. apply ty_BF. eapply buf_at; eassumption. Qed.

(** Submission loops over the pairs (tile of the slice, position along the axis). *)
Lemma slice_pairs big small axis (body : Z -> list (task T) -> res (list (task T))) (f : Z * Z -> task T) :
  (forall i ts, 0 <= i < ntiles small -> body i ts = Ok (ts ++ map (fun j => f (i, j)) (zrange (sg_n big axis)))) ->
  for_ 0 (ntiles small) body [] = Ok (map f (sg_xs big small axis)).
Proof.
  intros H. rewrite (for_flat _ _ (fun i => map (fun j => f (i, j)) (zrange (sg_n big axis)))) by assumption.
  rewrite app_nil_l. rewrite (flat_map_pairs (fun i j => f (i, j))). unfold sg_xs. f_equal. apply map_ext.
  intros [i j]. reflexivity.
Qed.

Lemma sg_steps big small axis {A} i j (K : Z -> handle -> TileTraits -> Z * Z * Z -> res A) :
  wft big -> wft small -> slice_match big small axis -> 0 <= i < ntiles small -> 0 <= j < sg_n big axis ->
  (v <- wr (ins axis 0 (unoff (gridZ (t_shape small) (t_base small)) i)) axis j ;;
   o <- index_to_linear (t_grid big) v ;;
   h <- get_tile_handle big o ;;
   tt <- get_tile_traits big o ;;
   q <- tile_mnk tt axis ;; K o h tt q) =
  let d := dim3 axis (tsh big (sg_out big small axis (i, j))) in
  K (sg_out big small axis (i, j)) (th big (sg_out big small axis (i, j)))
    (tt_of (tsh big (sg_out big small axis (i, j)))) (zn d 0, zn d 2, zn d 1).
Proof.
  intros Hb Hs Hm Hi Hj. pose proof (proj1 Hm) as Ha.
  pose proof (zlen_gs big small axis Hb Hm) as Hg.
  rewrite wr_ins by (rewrite zlen_unoff; lia). bnd. rewrite t_grid_eq by assumption.
  pose proof (sg_inb big small axis Hb Hs Hm i j Hi Hj) as Hin.
  rewrite index_to_linear_ok by exact Hin. bnd.
  pose proof (sg_bound big small axis Hb Hs Hm i j Hi Hj) as Ho. unfold sg_out in Ho |- *. cbn [fst snd] in Ho |- *.
  rewrite get_tile_handle_ok, get_tile_traits_ok by assumption. bnd. bnd.
  rewrite tile_mnk_ok by (rewrite zlen_tsh by assumption; lia). bnd. reflexivity.
Qed.

Lemma src_steps small i {A} (K : list Z -> handle -> res A) : wft small -> 0 <= i < ntiles small ->
  (v <- linear_to_index (t_grid small) i ;; _ <- get_tile_traits small i ;; h <- get_tile_handle small i ;; K v h)
  = K (unoff (gridZ (t_shape small) (t_base small)) i) (th small i).
Proof.
  intros Hs Hi. rewrite t_grid_eq by assumption. rewrite linear_to_index_ok by (auto using wf_pg). bnd.
  rewrite get_tile_traits_ok, get_tile_handle_ok by assumption. bnd. bnd. reflexivity.
Qed.

Lemma rd_grid big axis : wft big -> 0 <= axis < zlen (t_shape big) ->
  rd (tt_shape (t_grid big)) axis = Ok (sg_n big axis).
Proof.
  intros Hb Ha. rewrite t_grid_eq by assumption. cbn [tt_of tt_shape]. unfold sg_n. apply rd_ok.
  rewrite zlen_gb by assumption. assumption.
Qed.

Definition wf3 (m n k : Z) := 0 < m /\ 0 < n /\ 0 < k.

(** *** Broadcast of a slice *)
Section Bcast.
Variables (src dst : tensor) (axis : Z).
Hypothesis (HA : wft src) (HB : wft dst).
Let d3 (p : Z * Z) := dim3 axis (tsh dst (sg_out dst src axis p)).

Ltac bc_loop Hm := rewrite t_ntiles_eq by assumption;
  apply (slice_pairs dst src axis); intros i ts Hi; rewrite src_steps by assumption;
  pose proof (proj1 Hm) as Ha; pose proof (zlen_gs dst src axis HB Hm) as Hg;
  rewrite slice_index_ok by (auto; rewrite zlen_unoff; assumption); bnd; rewrite rd_grid by assumption; bnd;
  apply for_map; intros j acc Hj.

Lemma add_slice_submits alpha beta : slice_match dst src axis ->
  add_slice_async alpha src beta dst axis =
    Ok (map (fun p => add_slice_submit (zn (d3 p) 0) (zn (d3 p) 2) (zn (d3 p) 1) alpha (th src (fst p)) beta
                        (th dst (sg_out dst src axis p))) (sg_xs dst src axis)).
Proof.
  intros Hm. unfold add_slice_async.
  rewrite (checks_true _ _ (slice_check_checks dst src axis True (Ok tt) HB HA (fun _ => checks_ok))) by tauto. bnd.
  bc_loop Hm. rewrite (sg_steps dst src axis i j) by assumption. reflexivity.
Qed.

Lemma prod_slice_submits alpha : slice_match dst src axis ->
  prod_slice_async src alpha dst axis =
    Ok (map (fun p => prod_slice_submit (zn (d3 p) 0) (zn (d3 p) 2) (zn (d3 p) 1) alpha (th src (fst p))
                        (th dst (sg_out dst src axis p))) (sg_xs dst src axis)).
Proof.
  intros Hm. unfold prod_slice_async.
  rewrite (checks_true _ _ (slice_check_checks dst src axis True (Ok tt) HB HA (fun _ => checks_ok))) by tauto. bnd.
  bc_loop Hm. rewrite (sg_steps dst src axis i j) by assumption. reflexivity.
Qed.

(** value of the slice element under element idx of dst *)
Lemma bc_value (s : store T) idx : slice_match dst src axis -> inb (t_shape dst) idx ->
  let p := (etile src (del axis idx), zn idx axis / zn (t_base dst) axis) in
  let d := d3 p in
  zn (fl (s (th src (fst p)))) (cz [zn d 0; zn d 1; zn d 2] 0 (eoff dst idx) + zn d 0 * cz [zn d 0; zn d 1; zn d 2] 2 (eoff dst idx))
  = elem s src (del axis idx).
Proof.
  intros Hm Hi p d. destruct (sg_geo dst src axis HB HA Hm idx Hi) as (_ & _ & _ & _ & o0 & o2 & G5 & G6 & G7 & G8 & G9).
  cbv zeta in *. fold p in G5, G6, G7, G8, G9. change (dim3 axis (tsh dst (sg_out dst src axis p))) with d in *.
  unfold elem. rewrite G9, G8. destruct (cz3 _ _ _ _ _ _ G5 G7 G6) as (C0 & _ & C2 & _). rewrite C0, C2. reflexivity.
Qed.

Lemma disj_notin (t1 t2 : tensor) i : wft t1 -> disj t1 t2 -> 0 <= i < ntiles t1 -> ~ In (th t1 i) (tile_handles t2).
Proof. intros H1 Hd Hi Hin. apply (Hd (th t1 i)); [apply th_In; assumption|assumption]. Qed.

Lemma bmode_cases (beta : T) : bmode beta = MW \/ bmode beta = MRW.
Proof. unfold bmode. destruct (o_eqb beta o_zero); auto. Qed.

Theorem add_slice_runs alpha beta s : slice_match dst src axis -> disj src dst -> stored KF s src -> stored KF s dst ->
  runs (add_slice_async alpha src beta dst axis) s (fun s' =>
    (forall idx, inb (t_shape dst) idx ->
       elem s' dst idx = bc beta (o_mul alpha (elem s src (del axis idx))) (elem s dst idx)) /\
    frame [dst] s s').
Proof.
  intros Hm Hd S1 S2.
  eapply runs_weaken; [apply (acc_elem dst (sg_xs dst src axis) (sg_out dst src axis) (fun _ => bmode beta)
    (fun p => [th src (fst p)]) (fun _ => []) (fun _ => [])
    (fun p => wrap2 (fun x d => k_add_slice (zn (d3 p) 0) (zn (d3 p) 2) (zn (d3 p) 1) alpha x beta d))
    (fun p b1 _ o v => bc beta (o_mul alpha (zn (fl (hd (BF []) b1))
       (cz [zn (d3 p) 0; zn (d3 p) 1; zn (d3 p) 2] 0 o + zn (d3 p) 0 * cz [zn (d3 p) 0; zn (d3 p) 1; zn (d3 p) 2] 2 o))) v))|].
  - assumption.
  - assumption.
  - rewrite add_slice_submits by assumption. reflexivity.
  - intros [i j] Hx. apply sg_xs_In in Hx. cbn [fst snd] in Hx. apply sg_bound; tauto || assumption.
  - intros x _. apply bmode_cases.
  - intros [i j] h Hx [[<-|[]]|[[]|[]]]. apply sg_xs_In in Hx. cbn [fst snd] in *. apply disj_notin; tauto || assumption.
  - intros x b1 b2 o v v' _ E. unfold bmode in E. unfold bc. destruct (o_eqb beta o_zero); [reflexivity|discriminate].
  - intros [i j] st d sc Hx Ht Hl Hsc. apply sg_xs_In in Hx. cbn [fst snd] in Hx. destruct Hx as [Hi Hj].
    destruct sc; [|discriminate]. exists []. split; [|reflexivity].
    destruct (sg_sizes dst src axis HB HA Hm i j Hi Hj) as (D0 & D1 & D2 & _ & T1 & T2 & _). cbv zeta in *.
    fold (d3 (i, j)) in D0, D1, D2, T1, T2.
    destruct (bufF s st src i Ht S1 Hi) as (l & E & Hll). cbn [map app fst]. rewrite E. cbn [wrap2 app].
    rewrite k_add_slice_ok by (assumption || congruence). bnd. rewrite T2. reflexivity.
  - intros s' _ [H1 H2]. split; [|assumption]. intros idx Hi. rewrite H1 by assumption.
    rewrite (sg_filter dst src axis) by assumption. cbn [fold_left map hd fst]. do 2 f_equal.
    apply (bc_value s idx Hm Hi).
Qed.

Theorem prod_slice_runs alpha s : slice_match dst src axis -> disj src dst -> stored KF s src -> stored KF s dst ->
  runs (prod_slice_async src alpha dst axis) s (fun s' =>
    (forall idx, inb (t_shape dst) idx ->
       elem s' dst idx = o_mul (elem s dst idx) (o_mul alpha (elem s src (del axis idx)))) /\
    frame [dst] s s').
Proof.
  intros Hm Hd S1 S2.
  eapply runs_weaken; [apply (acc_elem dst (sg_xs dst src axis) (sg_out dst src axis) (fun _ => MRW)
    (fun p => [th src (fst p)]) (fun _ => []) (fun _ => [])
    (fun p => wrap2 (k_prod_slice (zn (d3 p) 0) (zn (d3 p) 2) (zn (d3 p) 1) alpha))
    (fun p b1 _ o v => o_mul v (o_mul alpha (zn (fl (hd (BF []) b1))
       (cz [zn (d3 p) 0; zn (d3 p) 1; zn (d3 p) 2] 0 o + zn (d3 p) 0 * cz [zn (d3 p) 0; zn (d3 p) 1; zn (d3 p) 2] 2 o)))))|].
  - assumption.
  - assumption.
  - rewrite prod_slice_submits by assumption. reflexivity.
  - intros [i j] Hx. apply sg_xs_In in Hx. cbn [fst snd] in Hx. apply sg_bound; tauto || assumption.
  - auto.
  - intros [i j] h Hx [[<-|[]]|[[]|[]]]. apply sg_xs_In in Hx. cbn [fst snd] in *. apply disj_notin; tauto || assumption.
  - discriminate.
  - intros [i j] st d sc Hx Ht Hl Hsc. apply sg_xs_In in Hx. cbn [fst snd] in Hx. destruct Hx as [Hi Hj].
    destruct sc; [|discriminate]. exists []. split; [|reflexivity].
    destruct (sg_sizes dst src axis HB HA Hm i j Hi Hj) as (D0 & D1 & D2 & _ & T1 & T2 & _). cbv zeta in *.
    fold (d3 (i, j)) in D0, D1, D2, T1, T2.
    destruct (bufF s st src i Ht S1 Hi) as (l & E & Hll). cbn [map app fst]. rewrite E. cbn [wrap2 app].
    rewrite k_prod_slice_ok by (assumption || congruence). bnd. rewrite T2. reflexivity.
  - intros s' _ [H1 H2]. split; [|assumption]. intros idx Hi. rewrite H1 by assumption.
    rewrite (sg_filter dst src axis) by assumption. cbn [fold_left map hd fst]. do 2 f_equal.
    apply (bc_value s idx Hm Hi).
Qed.

(** add_slice3 *)
Variable src2 : tensor.
Hypothesis (HC : wft src2).

Lemma list_eqb_checks (a b : list Z) msg Q k : (a = b -> checks Q k) ->
  checks (a = b /\ Q) (throw_if (negb (list_eqb Z.eqb a b)) msg k).
Proof.
  intros H. apply checks_if; auto.
  - intros E ->. apply negb_true_iff in E. assert (X : list_eqb Z.eqb b b = true) by (apply list_eqb_Z; reflexivity). congruence.
  - intros E. apply negb_false_iff, list_eqb_Z in E. assumption.
Qed.

Lemma add_slice3_checks : checks (slice_match dst src axis /\ t_shape dst = t_shape src2 /\ t_base dst = t_base src2)
  (add_slice3_check src src2 dst axis).
Proof.
  unfold add_slice3_check. rewrite !t_ndim_eq by assumption.
  apply (checks_iff (zlen (t_shape dst) = zlen (t_shape src) + 1 /\ zlen (t_shape dst) = zlen (t_shape src2) /\
    slice_match dst src axis /\ t_shape dst = t_shape src2 /\ t_base dst = t_base src2 /\ True)).
  { split; [tauto|]. intros (H1 & H2 & H3). repeat split; try apply H1; try assumption.
    - destruct H1 as (Ha & -> & _). rewrite zlen_del by assumption. lia.
    - rewrite H2. reflexivity. }
  apply checks_eq. intros _. apply checks_eq. intros _. apply slice_check_checks; [assumption|assumption|]. intros _.
  apply list_eqb_checks. intros _. apply list_eqb_checks. intros _. apply checks_ok.
Qed.

Lemma add_slice3_submits alpha beta : slice_match dst src axis -> t_shape dst = t_shape src2 -> t_base dst = t_base src2 ->
  add_slice3_async alpha src beta src2 dst axis =
    Ok (map (fun p => add_slice3_submit (zn (d3 p) 0) (zn (d3 p) 2) (zn (d3 p) 1) alpha (th src (fst p)) beta
                        (th src2 (sg_out dst src axis p)) (th dst (sg_out dst src axis p))) (sg_xs dst src axis)).
Proof.
  intros Hm E1 E2. unfold add_slice3_async.
  rewrite (checks_true _ _ add_slice3_checks) by tauto. bnd.
  bc_loop Hm.
  pose proof (sg_bound dst src axis HB HA Hm i j Hi Hj) as Ho.
  assert (Ho2 : 0 <= sg_out dst src axis (i, j) < ntiles src2) by (rewrite <- (ntiles_ext dst src2); assumption).
  rewrite wr_ins by (rewrite zlen_unoff; lia). bnd. rewrite t_grid_eq by assumption.
  rewrite index_to_linear_ok by (apply (sg_inb dst src axis); assumption). bnd.
  fold (sg_out dst src axis (i, j)). unfold sg_out in Ho, Ho2 |- *. cbn [fst snd] in Ho, Ho2 |- *.
  rewrite !get_tile_handle_ok, get_tile_traits_ok by assumption. bnd. bnd. bnd.
  rewrite tile_mnk_ok by (rewrite zlen_tsh by assumption; lia). bnd. reflexivity.
Qed.

Theorem add_slice3_runs alpha beta s : slice_match dst src axis -> t_shape dst = t_shape src2 -> t_base dst = t_base src2 ->
  disj src dst -> disj src2 dst -> stored KF s src -> stored KF s src2 -> stored KF s dst ->
  runs (add_slice3_async alpha src beta src2 dst axis) s (fun s' =>
    (forall idx, inb (t_shape dst) idx ->
       elem s' dst idx = bc beta (o_mul alpha (elem s src (del axis idx))) (elem s src2 idx)) /\
    frame [dst] s s').
Proof.
  intros Hm E1 E2 Hd Hd2 S1 S3 S2.
  eapply runs_weaken; [apply (acc_elem dst (sg_xs dst src axis) (sg_out dst src axis) (fun _ => MW)
    (fun p => [th src (fst p); th src2 (sg_out dst src axis p)]) (fun _ => []) (fun _ => [])
    (fun p => wrap3 (fun a b d => k_add_slice3 (zn (d3 p) 0) (zn (d3 p) 2) (zn (d3 p) 1) alpha a beta b d))
    (fun p b1 _ o v => bc beta (o_mul alpha (zn (fl (hd (BF []) b1))
       (cz [zn (d3 p) 0; zn (d3 p) 1; zn (d3 p) 2] 0 o + zn (d3 p) 0 * cz [zn (d3 p) 0; zn (d3 p) 1; zn (d3 p) 2] 2 o)))
       (zn (fl (hd (BF []) (tl b1))) o)))|].
  - assumption.
  - assumption.
  - rewrite add_slice3_submits by assumption. reflexivity.
  - intros [i j] Hx. apply sg_xs_In in Hx. cbn [fst snd] in Hx. apply sg_bound; tauto || assumption.
  - auto.
  - intros [i j] h Hx [[<-|[<-|[]]]|[[]|[]]]; apply sg_xs_In in Hx; cbn [fst snd] in *.
    + apply disj_notin; tauto || assumption.
    + apply disj_notin; [assumption|assumption|]. rewrite <- (ntiles_ext dst src2) by assumption. apply sg_bound; tauto || assumption.
  - reflexivity.
  - intros [i j] st d sc Hx Ht Hl Hsc. apply sg_xs_In in Hx. cbn [fst snd] in Hx. destruct Hx as [Hi Hj].
    destruct sc; [|discriminate]. exists []. split; [|reflexivity].
    destruct (sg_sizes dst src axis HB HA Hm i j Hi Hj) as (D0 & D1 & D2 & _ & T1 & T2 & _). cbv zeta in *.
    fold (d3 (i, j)) in D0, D1, D2, T1, T2.
    pose proof (sg_bound dst src axis HB HA Hm i j Hi Hj) as Ho.
    assert (Ho2 : 0 <= sg_out dst src axis (i, j) < ntiles src2) by (rewrite <- (ntiles_ext dst src2); assumption).
    destruct (bufF s st src i Ht S1 Hi) as (l & E & Hll).
    destruct (bufF s st src2 _ Ht S3 Ho2) as (l2 & E' & Hll2). rewrite <- (tsz_ext dst src2) in Hll2 by assumption.
    cbn [map app fst]. rewrite E, E'. cbn [wrap3 app].
    rewrite k_add_slice3_ok by (assumption || congruence). bnd. rewrite T2. reflexivity.
  - intros s' _ [H1 H2]. split; [|assumption]. intros idx Hi. rewrite H1 by assumption.
    rewrite (sg_filter dst src axis) by assumption. cbn [fold_left map hd tl fst]. f_equal.
    + f_equal. apply (bc_value s idx Hm Hi).
    + destruct (sg_geo dst src axis HB HA Hm idx Hi) as (_ & _ & _ & G4 & _). cbv zeta in G4. rewrite <- G4.
      unfold elem. rewrite (etile_ext src2 dst), (eoff_ext src2 dst) by congruence. reflexivity.
Qed.
End Bcast.
End P.
