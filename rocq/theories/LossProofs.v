(** * Kernels driven by index or mask arrays, for any scalar operations *)
From Verif Require Import Base Spec Geometry Traits TraitsProofs Runtime Ops TensorSem ElemGeneric OneOut
  KernelsElem ElemOps Axis AccRuns Loops SliceOps SliceGeo SliceProofs FiberProofs GemmRuns LossOps.

Section K.
Context {T : Type} {O : Ops T}.
Local Notation vec := (list T).

Lemma k_mask_scalar_ok nr nc mask (val : T) data : 0 < nr -> 0 < nc -> zlen mask = nr -> zlen data = nr * nc ->
  k_mask_scalar nr nc mask val data = Ok (ztab (nr * nc) (fun j =>
    if zn mask (cz [nr; nc] 0 j) then zn data j else val)).
Proof.
  intros Hr Hc Hm Hd. unfold k_mask_scalar.
  set (G := fun j (v : T) => if zn mask (cz [nr; nc] 0 j) then v else val).
  apply (blk_tab (nr * nc) G); [|assumption].
  apply (blk_for (nr * nc) nr (cz [nr; nc] 0) (fun _ => true) (fun i j => cz [nr; nc] 0 j =? i)); [lia| |reflexivity|].
  - intros i Hi. eapply blk_fun with (f := fun d => if negb (zn mask i) then
      for_ 0 nc (fun j d => wr d (j * nr + i) val) d else Ok d).
    { intros d _. rewrite rd_ok' by lia. reflexivity. }
    destruct (zn mask i) eqn:E; cbn [negb].
    + intros d Hl. exists d. split; [reflexivity|]. split; [assumption|]. intros j Hj.
      destruct (Z.eqb_spec (cz [nr; nc] 0 j) i) as [Ej|]; [|reflexivity]. unfold G. rewrite Ej, E. reflexivity.
    + apply (blk_for (nr * nc) nc (cz [nr; nc] 1) _ (fun l j => j =? l * nr + i)); [lia| | |].
      * intros l Hl. apply (blk_wr (nr * nc)); [nia|]. intros d _. f_equal. unfold G.
        replace (l * nr + i) with (i + nr * l) by ring. destruct (cz2 nr nc i l Hi Hl) as (-> & _). rewrite E. reflexivity.
      * intros l j Hl Hj. destruct (cz2_inv nr nc j Hr Hc Hj) as (C0 & C1 & C).
        destruct (Z.eqb_spec j (l * nr + i)) as [->|Hne].
        -- replace (l * nr + i) with (i + nr * l) by ring. destruct (cz2 nr nc i l Hi Hl) as (-> & -> & _). rewrite !Z.eqb_refl. reflexivity.
        -- symmetry. apply andb_false_iff. destruct (Z.eqb_spec (cz [nr; nc] 0 j) i) as [E0|]; [|auto].
           destruct (Z.eqb_spec (cz [nr; nc] 1 j) l) as [E1|]; [|auto]. exfalso. apply Hne. rewrite <- C, E0, E1. ring.
      * intros j Hj _. apply (cz2_inv nr nc j Hr Hc Hj).
  - intros j Hj _. apply (cz2_inv nr nc j Hr Hc Hj).
Qed.

Lemma k_subtract_ok nl no (val : T) labels dst : 0 < nl -> 0 < no -> zlen labels = no -> zlen dst = nl * no ->
  (forall i, 0 <= i < no -> 0 <= zn labels i < nl) ->
  k_subtract_indexed_outputs nl no val labels dst = Ok (ztab (nl * no) (fun j =>
    if zn labels (cz [nl; no] 1 j) =? cz [nl; no] 0 j then o_sub (zn dst j) val else zn dst j)).
Proof.
  intros Hl Ho Hm Hd Hlab. unfold k_subtract_indexed_outputs.
  set (G := fun j (v : T) => if zn labels (cz [nl; no] 1 j) =? cz [nl; no] 0 j then o_sub v val else v).
  apply (blk_tab (nl * no) G); [|assumption].
  apply (blk_for (nl * no) no (cz [nl; no] 1) (fun _ => true) (fun i j => cz [nl; no] 1 j =? i)); [lia| |reflexivity|].
  - intros i Hi. pose proof (Hlab i Hi) as Hli. destruct (cz2 nl no _ i Hli Hi) as (C0 & C1 & Cb).
    replace (zn labels i + nl * i) with (zn labels i + i * nl) in * by ring.
    intros d Hdl. rewrite rd_ok' by lia. rewrite rd_ok' by lia.
    destruct (wr_ok d (zn labels i + i * nl) (o_sub (zn d (zn labels i + i * nl)) val)) as (d' & -> & Hl' & Hz); [lia|].
    exists d'. split; [reflexivity|]. split; [lia|]. intros j Hj. rewrite Hz by lia.
    destruct (cz2_inv nl no j Hl Ho Hj) as (D0 & D1 & D).
    destruct (Z.eqb_spec j (zn labels i + i * nl)) as [->|Hne].
    + rewrite C1, Z.eqb_refl. unfold G. rewrite C0, C1, Z.eqb_refl. reflexivity.
    + destruct (Z.eqb_spec (cz [nl; no] 1 j) i) as [E1|]; [|reflexivity]. unfold G. rewrite E1.
      destruct (Z.eqb_spec (zn labels i) (cz [nl; no] 0 j)) as [E0|]; [|reflexivity].
      exfalso. apply Hne. rewrite <- D, E1, E0. ring.
  - intros j Hj _. apply (cz2_inv nl no j Hl Ho Hj).
Qed.

Lemma k_embedding_ok m n k ks kz V index (vocab embed : vec) :
  0 < m -> 0 < n -> 0 < k -> 0 <= ks -> 0 < kz -> ks + kz <= k ->
  zlen index = m * n -> zlen vocab = kz * V -> zlen embed = m * (k * n) ->
  (forall p, 0 <= p < m * n -> 0 <= zn index p < V) ->
  k_embedding m n k ks kz index vocab embed = Ok (ztab (m * (k * n)) (fun j =>
    let l := cz [m; k; n] 1 j in
    if (ks <=? l) && (l <? ks + kz)
    then zn vocab (kz * zn index (cz [m; k; n] 0 j + m * cz [m; k; n] 2 j) + (l - ks)) else zn embed j)).
Proof.
  intros Hm Hn Hk Hks Hkz Hkk Hi Hv He Hx. unfold k_embedding.
  set (L := m * (k * n)).
  set (G := fun j (v : T) => let l := cz [m; k; n] 1 j in
    if (ks <=? l) && (l <? ks + kz)
    then zn vocab (kz * zn index (cz [m; k; n] 0 j + m * cz [m; k; n] 2 j) + (l - ks)) else v).
  apply (blk_tab L G); [|assumption].
  apply (blk_for L n (cz [m; k; n] 2) (fun _ => true) (fun i j => cz [m; k; n] 2 j =? i)); [lia| |reflexivity|].
  2:{ intros j Hj _. apply (cz3_inv m k n j Hm Hk Hn Hj). }
  intros i2 H2. apply (blk_for L m (cz [m; k; n] 0) _ (fun i j => (cz [m; k; n] 2 j =? i2) && (cz [m; k; n] 0 j =? i))); [lia| |reflexivity|].
  2:{ intros j Hj _. apply (cz3_inv m k n j Hm Hk Hn Hj). }
  intros i1 H1.
  assert (Hp : 0 <= i1 + m * i2 < m * n) by nia. pose proof (Hx _ Hp) as HV.
  set (v := zn index (i1 + m * i2)) in *.
  intros d Hd. unfold L in Hd. replace (i2 * m + i1) with (i1 + m * i2) by ring. rewrite rd_ok' by lia. fold v.
  destruct (for_inv (fun q (e : vec) => zlen e = L /\ forall j, 0 <= j < L -> zn e j =
      if (cz [m; k; n] 2 j =? i2) && (cz [m; k; n] 0 j =? i1) && (ks <=? cz [m; k; n] 1 j) && (cz [m; k; n] 1 j <? ks + q)
      then zn vocab (kz * v + (cz [m; k; n] 1 j - ks)) else zn d j) 0 kz
    (fun i0 embed => x <- rd vocab (kz * v + i0) ;; wr embed ((i2 * k + ks) * m + i1 + i0 * m) x) d) as (e & Ee & Hle & Hze).
  - lia.
  - split; [assumption|]. intros j Hj. destruct (_ && _) eqn:E; [|reflexivity]. exfalso.
    repeat (apply andb_true_iff in E; destruct E as [E ?]). lia.
  - intros q e Hq [Hle Hze]. assert (Hb : 0 <= kz * v + q < kz * V) by nia. rewrite rd_ok' by lia.
    assert (H0 : 0 <= ks + q < k) by lia. destruct (cz3 m k n i1 (ks + q) i2 H1 H0 H2) as (C0 & C1 & C2 & Cb).
    replace ((i2 * k + ks) * m + i1 + q * m) with (i1 + m * (ks + q + k * i2)) by ring.
    destruct (wr_ok e (i1 + m * (ks + q + k * i2)) (zn vocab (kz * v + q))) as (e' & -> & Hl' & Hz'); [unfold L in Hle; lia|].
    exists e'. split; [reflexivity|]. split; [lia|]. intros j Hj. rewrite Hz' by lia.
    destruct (Z.eqb_spec j (i1 + m * (ks + q + k * i2))) as [->|Hne].
    + rewrite C0, C1, C2, !Z.eqb_refl. cbn [andb]. rewrite (proj2 (Z.leb_le ks (ks + q))) by lia.
      rewrite (proj2 (Z.ltb_lt (ks + q) (ks + (q + 1)))) by lia. cbn [andb]. f_equal. ring.
    + rewrite Hze by assumption. destruct (cz3_inv m k n j Hm Hk Hn Hj) as (D0 & D1 & D2 & D).
      destruct (Z.eqb_spec (cz [m; k; n] 2 j) i2) as [E2|]; [|reflexivity].
      destruct (Z.eqb_spec (cz [m; k; n] 0 j) i1) as [E0|]; [|reflexivity]. cbn [andb].
      destruct (Z.leb_spec ks (cz [m; k; n] 1 j)); [|reflexivity]. cbn [andb].
      destruct (Z.ltb_spec (cz [m; k; n] 1 j) (ks + q)); destruct (Z.ltb_spec (cz [m; k; n] 1 j) (ks + (q + 1))); try reflexivity; try lia.
      exfalso. apply Hne. rewrite <- D, E2, E0. replace (cz [m; k; n] 1 j) with (ks + q) by lia. reflexivity.
  - exists e. split; [exact Ee|]. split; [assumption|]. intros j Hj. rewrite Hze by assumption. unfold G. cbv zeta.
    destruct (Z.eqb_spec (cz [m; k; n] 2 j) i2) as [E2|]; [|reflexivity].
    destruct (Z.eqb_spec (cz [m; k; n] 0 j) i1) as [E0|]; [|reflexivity]. cbn [andb]. rewrite E2, E0. fold v. reflexivity.
Qed.

(** One cell of the vocabulary tile accumulates the entries of the embedding whose index selects
    its column, in the order of the loops. *)
Definition eb_cell (m n k ks kz : Z) (index : list Z) (embed : vec) (o : Z) (old : T) : T :=
  fold_left (fun acc i2 => fold_left (fun acc i1 =>
      if zn index (i1 + m * i2) =? o / kz then o_add acc (zn embed (i1 + m * (ks + o mod kz + k * i2))) else acc)
    (zrange m) acc) (zrange n) old.

Lemma for_cells L n (body : Z -> vec -> res vec) (g : Z -> Z -> T -> T) (d : vec) : 0 <= n ->
  (forall i d, 0 <= i < n -> zlen d = L -> exists d', body i d = Ok d' /\ zlen d' = L /\
     forall j, 0 <= j < L -> zn d' j = g i j (zn d j)) ->
  zlen d = L ->
  exists d', for_ 0 n body d = Ok d' /\ zlen d' = L /\
    forall j, 0 <= j < L -> zn d' j = fold_left (fun v i => g i j v) (zrange n) (zn d j).
Proof.
  intros Hn H Hd.
  destruct (for_inv (fun q (e : vec) => zlen e = L /\ forall j, 0 <= j < L -> zn e j =
     fold_left (fun v i => g i j v) (zrange q) (zn d j)) 0 n body d) as (e & E & Hl & Hz).
  - assumption.
  - split; [assumption|]. reflexivity.
  - intros i e Hi [Hl Hz]. destruct (H i e Hi Hl) as (e' & E & Hl' & Hz'). exists e'. split; [assumption|]. split; [assumption|].
    intros j Hj. rewrite zrange_succ by lia. rewrite fold_left_app. cbn [fold_left]. rewrite <- Hz by assumption. apply Hz'. assumption.
  - exists e. auto.
Qed.

Lemma k_embedding_backward_ok m n k ks kz V index (embed vocab : vec) :
  0 < m -> 0 < n -> 0 < k -> 0 <= ks -> 0 < kz -> ks + kz <= k ->
  zlen index = m * n -> zlen vocab = kz * V -> zlen embed = m * (k * n) ->
  (forall p, 0 <= p < m * n -> 0 <= zn index p < V) ->
  k_embedding_backward m n k ks kz index embed vocab = Ok (ztab (kz * V) (fun o =>
    eb_cell m n k ks kz index embed o (zn vocab o))).
Proof.
  intros Hm Hn Hk Hks Hkz Hkk Hi Hv He Hx. unfold k_embedding_backward.
  destruct (for_cells (kz * V) n (fun i2 => for_ 0 m (fun i1 vocab =>
    v <- rd index (i2 * m + i1) ;;
    for_ 0 kz (fun i0 vocab =>
      x <- rd embed ((i2 * k + ks) * m + i1 + i0 * m) ;;
      y <- rd vocab (kz * v + i0) ;;
      wr vocab (kz * v + i0) (o_add y x)) vocab))
    (fun i2 o acc => fold_left (fun acc i1 =>
      if zn index (i1 + m * i2) =? o / kz then o_add acc (zn embed (i1 + m * (ks + o mod kz + k * i2))) else acc)
    (zrange m) acc) vocab) as (d & E & Hl & Hz); [lia| |assumption|].
  - intros i2 d H2 Hd. apply (for_cells (kz * V) m _ (fun i1 o acc =>
      if zn index (i1 + m * i2) =? o / kz then o_add acc (zn embed (i1 + m * (ks + o mod kz + k * i2))) else acc)); [lia| |assumption].
    clear d Hd. intros i1 d H1 Hd.
    assert (Hp : 0 <= i1 + m * i2 < m * n) by nia. pose proof (Hx _ Hp) as HV.
    replace (i2 * m + i1) with (i1 + m * i2) by ring. rewrite rd_ok' by lia.
    set (v := zn index (i1 + m * i2)) in *.
    destruct (for_inv (fun q (e : vec) => zlen e = kz * V /\ forall j, 0 <= j < kz * V -> zn e j =
      if (v =? j / kz) && (j mod kz <? q) then o_add (zn d j) (zn embed (i1 + m * (ks + j mod kz + k * i2))) else zn d j) 0 kz
      (fun i0 vocab => x <- rd embed ((i2 * k + ks) * m + i1 + i0 * m) ;;
        y <- rd vocab (kz * v + i0) ;; wr vocab (kz * v + i0) (o_add y x)) d) as (e & Ee & Hle & Hze).
    + lia.
    + split; [assumption|]. intros j Hj. pose proof (Z.mod_pos_bound j kz Hkz).
      destruct (Z.ltb_spec (j mod kz) 0); [lia|]. rewrite andb_false_r. reflexivity.
    + intros q e Hq [Hle Hze]. assert (Hb : 0 <= kz * v + q < kz * V) by nia.
      assert (H0 : 0 <= ks + q < k) by lia. destruct (cz3 m k n i1 (ks + q) i2 H1 H0 H2) as (_ & _ & _ & Cb).
      replace ((i2 * k + ks) * m + i1 + q * m) with (i1 + m * (ks + q + k * i2)) by ring.
      rewrite rd_ok' by lia. rewrite rd_ok' by lia.
      assert (Dq : (kz * v + q) / kz = v) by (symmetry; apply (Z.div_unique _ _ v q); lia).
      assert (Mq : (kz * v + q) mod kz = q) by (symmetry; apply (Z.mod_unique _ _ v q); lia).
      destruct (wr_ok e (kz * v + q) (o_add (zn e (kz * v + q)) (zn embed (i1 + m * (ks + q + k * i2))))) as (e' & -> & Hl' & Hz'); [lia|].
      exists e'. split; [reflexivity|]. split; [lia|]. intros j Hj. rewrite Hz' by lia.
      destruct (Z.eqb_spec j (kz * v + q)) as [->|Hne].
      * rewrite Hze by assumption. rewrite Dq, Mq, Z.eqb_refl. cbn [andb]. rewrite Z.ltb_irrefl.
        rewrite (proj2 (Z.ltb_lt q (q + 1))) by lia. reflexivity.
      * rewrite Hze by assumption. destruct (Z.eqb_spec v (j / kz)) as [Ev|]; [|reflexivity]. cbn [andb].
        pose proof (Z.div_mod j kz ltac:(lia)) as DM. rewrite <- Ev in DM.
        destruct (Z.ltb_spec (j mod kz) q); destruct (Z.ltb_spec (j mod kz) (q + 1)); try reflexivity; lia.
    + exists e. split; [exact Ee|]. split; [assumption|]. intros j Hj. rewrite Hze by assumption.
      pose proof (Z.mod_pos_bound j kz Hkz). rewrite (proj2 (Z.ltb_lt (j mod kz) kz)) by lia. rewrite andb_true_r. reflexivity.
  - rewrite E. f_equal. apply list_ext.
    + rewrite zlen_ztab by (rewrite <- Hv; apply zlen_nonneg). assumption.
    + rewrite Hl. intros j Hj. rewrite zn_ztab by assumption. apply Hz. assumption.
Qed.

(** The two Kahan updates of one position. *)
Definition ts_sum (no nl : Z) (lse src : vec) (labels : list Z) : T * T :=
  fold_left (fun st i => kahan (o_neg (zn src (zn labels i + nl * i))) (kahan (zn lse i) st)) (zrange no) (o_zero, o_zero).
Definition ts_val (alpha : T) (p : T * T) (old : T) : T :=
  o_add (o_sub old (o_mul alpha (snd p))) (o_mul alpha (fst p)).

Lemma k_total_sum_ok (alpha : T) nl no lse src labels v : 0 < nl -> 0 <= no ->
  zlen lse = no -> zlen labels = no -> zlen src = nl * no ->
  (forall i, 0 <= i < no -> 0 <= zn labels i < nl) ->
  k_total_sum_accum alpha nl no lse src labels [v] = Ok [ts_val alpha (ts_sum no nl lse src labels) v].
Proof.
  intros Hnl Hno Hl Hb Hs Hlab. unfold k_total_sum_accum.
  rewrite (for_fold no _ (fun i st => kahan (o_neg (zn src (zn labels i + nl * i))) (kahan (zn lse i) st))).
  - bnd. fold (ts_sum no nl lse src labels). destruct (ts_sum no nl lse src labels) as [S c]. reflexivity.
  - assumption.
  - intros i st Hi. pose proof (Hlab i Hi). rewrite rd_ok' by lia. cbv zeta. rewrite rd_ok' by lia. rewrite rd_ok' by nia.
    replace (zn labels i + i * nl) with (zn labels i + nl * i) by ring. reflexivity.
Qed.
End K.
