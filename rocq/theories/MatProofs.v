(** * transpose (any scalar operations); checks of transpose and gemm *)
From Verif Require Import Base Spec Geometry Traits TraitsProofs Runtime Ops TensorSem ElemGeneric OneOut
  KernelsElem ElemOps Axis AccRuns Loops SliceOps SliceGeo SliceProofs SplitGeo MatOps.

(** The part [i, i+n) of a list. *)
Definition sub (l : list Z) (i n : Z) : list Z := ztab n (fun x => zn l (i + x)).
Lemma zlen_sub l i n : 0 <= n -> zlen (sub l i n) = n.
Proof. apply zlen_ztab. Qed.
Lemma zn_sub l i n x : 0 <= x < n -> zn (sub l i n) x = zn l (i + x).
Proof. intros H. apply (zn_ztab n (fun x => zn l (i + x)) x H). Qed.
Lemma sub_all l : sub l 0 (zlen l) = l.
Proof.
  pose proof (zlen_nonneg l). apply list_ext; [apply zlen_sub; assumption|]. rewrite zlen_sub by assumption.
  intros i Hi. rewrite zn_sub by assumption. reflexivity.
Qed.
Lemma sub_split l i a b : 0 <= a -> 0 <= b -> sub l i (a + b) = sub l i a ++ sub l (i + a) b.
Proof.
  intros Ha Hb. apply list_ext; [rewrite zlen_app, !zlen_sub; lia|]. rewrite zlen_sub by lia.
  intros x Hx. rewrite zn_sub by assumption. destruct (Z.lt_ge_cases x a).
  - rewrite zn_app1 by (rewrite zlen_sub; lia). rewrite zn_sub by lia. reflexivity.
  - rewrite zn_app2 by (rewrite zlen_sub; lia). rewrite zlen_sub by lia. rewrite zn_sub by lia. f_equal. lia.
Qed.
Lemma sub_ext l i l' i' n : (forall x, 0 <= x < n -> zn l (i + x) = zn l' (i' + x)) -> sub l i n = sub l' i' n.
Proof. intros H. apply ztab_ext. assumption. Qed.
Lemma sub_app1 l1 l2 : sub (l1 ++ l2) 0 (zlen l1) = l1.
Proof.
  rewrite <- (sub_all l1) at 3. apply sub_ext. intros x Hx. apply zn_app1. lia.
Qed.
Lemma sub_app2 l1 l2 : sub (l1 ++ l2) (zlen l1) (zlen l2) = l2.
Proof.
  rewrite <- (sub_all l2) at 3. apply sub_ext. intros x Hx. rewrite zn_app2 by lia. f_equal. lia.
Qed.

(** Rotation of a list by n positions to the left. *)
Definition rot {A} (n : Z) (l : list A) : list A := skipn (Z.to_nat n) l ++ firstn (Z.to_nat n) l.
Lemma rot_app {A} (l1 l2 : list A) : rot (zlen l1) (l1 ++ l2) = l2 ++ l1.
Proof. unfold rot, zlen. rewrite Nat2Z.id, firstn_app_len, skipn_app_len by reflexivity. reflexivity. Qed.
Lemma rot_split {A} n (l : list A) : 0 <= n <= zlen l -> exists l1 l2, l = l1 ++ l2 /\ zlen l1 = n /\ rot n l = l2 ++ l1.
Proof.
  intros H. exists (firstn (Z.to_nat n) l), (skipn (Z.to_nat n) l).
  split; [symmetry; apply firstn_skipn|]. split; [|reflexivity].
  unfold zlen in *. rewrite firstn_length. lia.
Qed.
Lemma zlen_rot {A} n (l : list A) : 0 <= n <= zlen l -> zlen (rot n l) = zlen l.
Proof. intros H. destruct (rot_split n l H) as (l1 & l2 & -> & E & ->). rewrite !zlen_app. lia. Qed.
Lemma rot_rot {A} n (l : list A) : 0 <= n <= zlen l -> rot (zlen l - n) (rot n l) = l.
Proof.
  intros H. destruct (rot_split n l H) as (l1 & l2 & -> & E & ->).
  replace (zlen (l1 ++ l2) - n) with (zlen l2) by (rewrite zlen_app; lia). apply rot_app.
Qed.
Lemma zn_rot {A} `{Dflt A} n (l : list A) i : 0 <= n < zlen l -> 0 <= i < zlen l -> zn (rot n l) i = zn l ((i + n) mod zlen l).
Proof.
  intros Hn Hi. destruct (rot_split n l ltac:(lia)) as (l1 & l2 & -> & E & ->). rewrite zlen_app in *.
  destruct (Z.lt_ge_cases i (zlen l2)).
  - rewrite zn_app1 by lia. rewrite Z.mod_small by lia. rewrite zn_app2 by lia. f_equal. lia.
  - rewrite zn_app2 by lia. replace (i + n) with (i - zlen l2 + 1 * (zlen l1 + zlen l2)) by lia.
    rewrite Z.mod_add by lia. rewrite Z.mod_small by lia. rewrite zn_app1 by lia. reflexivity.
Qed.

(** The operands of a transposition: the leading [ndim] dimensions of src come last in dst. *)
Definition transpose_match (src dst : tensor) (ndim : Z) : Prop :=
  0 < ndim < zlen (t_shape src) /\
  t_shape dst = rot ndim (t_shape src) /\ t_base dst = rot ndim (t_base src).

Lemma transpose_checks src dst ndim : wft src -> wft dst ->
  checks (transpose_match src dst ndim) (transpose_check src dst ndim).
Proof.
  intros Hs Hd. unfold transpose_check. rewrite !t_ndim_eq by assumption.
  pose proof (wf_len _ Hs) as Ls. pose proof (wf_len _ Hd) as Ld.
  apply (checks_iff (0 < ndim < zlen (t_shape src) /\ zlen (t_shape dst) = zlen (t_shape src) /\
    forall i, 0 <= i < zlen (t_shape dst) ->
      zn (t_shape src) ((i + ndim) mod zlen (t_shape dst)) = zn (t_shape dst) i /\
      zn (t_base src) ((i + ndim) mod zlen (t_shape dst)) = zn (t_base dst) i)).
  { unfold transpose_match. split.
    - intros (H1 & H2 & H3). split; [assumption|]. rewrite H2 in H3. split; apply list_ext.
      + rewrite zlen_rot; lia.
      + intros i Hi. rewrite zn_rot by lia. symmetry. apply H3. lia.
      + rewrite zlen_rot; lia.
      + intros i Hi. rewrite zn_rot by lia. rewrite Ls. symmetry. apply H3. lia.
    - intros (H1 & H2 & H3). split; [assumption|]. assert (E : zlen (t_shape dst) = zlen (t_shape src)) by (rewrite H2, zlen_rot; lia).
      split; [assumption|]. rewrite E. intros i Hi. rewrite H2, H3. rewrite !zn_rot by lia. rewrite Ls. auto. }
  apply checks_if.
  - rewrite Bool.orb_true_iff, Z.leb_le, Z.geb_leb, Z.leb_le. lia.
  - rewrite Bool.orb_false_iff, Z.leb_gt, Z.geb_leb, Z.leb_gt. lia.
  - intros H1. apply checks_eq. intros H2. apply checks_for. intros i Hi.
    pose proof (Z.mod_pos_bound (i + ndim) (zlen (t_shape dst)) ltac:(lia)).
    apply check_dim_checks; auto; lia.
Qed.

Section TR.
Context {T : Type} {O : Ops T}.
Local Notation vec := (list T).

Lemma k_transpose_ok m n alpha (src dst : vec) : 0 < m -> 0 < n -> zlen src = m * n -> zlen dst = n * m ->
  k_transpose m n alpha src dst = Ok (ztab (n * m) (fun o => o_mul alpha (zn src (cz [n; m] 1 o + m * cz [n; m] 0 o)))).
Proof.
  intros Hm Hn Hs Hd. unfold k_transpose.
  rewrite (slice_nest2 n m (fun j i _ => o_mul alpha (zn src (i + m * j)))
    (fun i j d => x <- rd src (i + j * m) ;; wr d (i * n + j) (o_mul alpha x))); auto.
  intros i j d Hi Hj Hd' _. rewrite rd_ok' by nia. f_equal; [ring|]. f_equal. f_equal. ring.
Qed.

Section Run.
Variables (src dst : tensor) (sa sb ba bb : list Z).
Hypothesis (Hs : wft src) (Hd : wft dst).
Hypothesis (Ea : List.length sa = List.length ba) (Eb : List.length sb = List.length bb).
Hypothesis (Ess : t_shape src = sa ++ sb) (Esb : t_base src = ba ++ bb).
Hypothesis (Eds : t_shape dst = sb ++ sa) (Edb : t_base dst = bb ++ ba).

Lemma tr_geo : geo sa ba /\ geo sb bb.
Proof. apply (geo_app_inv sa sb ba bb Ea). rewrite <- Ess, <- Esb. apply wft_geo, Hs. Qed.

Definition tr_xs : list (Z * Z) := list_prod (zrange (rn sa ba)) (zrange (rn sb bb)).

Lemma tr_In p : In p tr_xs -> 0 <= fst p < rn sa ba /\ 0 <= snd p < rn sb bb.
Proof. destruct p. unfold tr_xs. rewrite in_prod_iff, !zrange_In. auto. Qed.

Lemma tr_src p : In p tr_xs -> 0 <= fst p + rn sa ba * snd p < ntiles src /\
  tsh src (fst p + rn sa ba * snd p) = rsh sa ba (fst p) ++ rsh sb bb (snd p) /\
  tsz src (fst p + rn sa ba * snd p) = rsz sa ba (fst p) * rsz sb bb (snd p).
Proof.
  intros Hp. destruct (tr_In p Hp) as [H1 H2]. destruct tr_geo as [G1 G2].
  unfold ntiles, tsz, tsh. rewrite Ess, Esb. split; [apply (split_bound G1); assumption|]. split.
  - apply (rsh_app G1 G2); assumption.
  - apply (rsz_app G1 G2); assumption.
Qed.
Lemma tr_dst p : In p tr_xs -> 0 <= snd p + rn sb bb * fst p < ntiles dst /\
  tsz dst (snd p + rn sb bb * fst p) = rsz sb bb (snd p) * rsz sa ba (fst p).
Proof.
  intros Hp. destruct (tr_In p Hp) as [H1 H2]. destruct tr_geo as [G1 G2].
  unfold ntiles, tsz, tsh. rewrite Eds, Edb. split; [apply (split_bound G2); assumption|].
  apply (rsz_app G2 G1); assumption.
Qed.

Lemma transpose_tasks alpha : transpose_match src dst (zlen sa) ->
  transpose_async alpha src dst (zlen sa) =
  Ok (map (fun p => transpose_submit (rsz sa ba (fst p)) (rsz sb bb (snd p)) alpha
     (th src (fst p + rn sa ba * snd p)) (th dst (snd p + rn sb bb * fst p))) tr_xs).
Proof.
  intros Hm. unfold transpose_async.
  rewrite (checks_true _ _ (transpose_checks src dst (zlen sa) Hs Hd) Hm). bnd. rewrite t_grid_eq by assumption.
  destruct tr_geo as [G1 G2].
  rewrite Ess, Esb, gridZ_app by assumption.
  rewrite rd_ms_app by (unfold zlen; rewrite gridZ_length; auto). bnd.
  fold (rn sa ba) (rn sb bb).
  rewrite (for_flat _ _ (fun i => map (fun j => transpose_submit (rsz sa ba i) (rsz sb bb j) alpha
     (th src (i + rn sa ba * j)) (th dst (j + rn sb bb * i))) (zrange (rn sb bb)))).
  - cbn [app]. rewrite (flat_map_pairs (fun i j => transpose_submit (rsz sa ba i) (rsz sb bb j) alpha
     (th src (i + rn sa ba * j)) (th dst (j + rn sb bb * i)))). reflexivity.
  - intros i acc Hi. apply for_map. intros j acc' Hj.
    assert (Hp : In (i, j) tr_xs) by (apply in_prod; apply zrange_In; assumption).
    destruct (tr_src (i, j) Hp) as (S1 & S2 & S3). destruct (tr_dst (i, j) Hp) as (D1 & D2). cbn [fst snd] in *.
    replace (i + j * rn sa ba) with (i + rn sa ba * j) by ring.
    replace (i * rn sb bb + j) with (j + rn sb bb * i) by ring.
    rewrite !get_tile_handle_ok by assumption. bnd. rewrite get_tile_traits_ok by assumption. bnd.
    rewrite S2. rewrite ?bind_Ok. rewrite rd_ms_app by (unfold zlen; rewrite (rsh_length G1) by assumption; reflexivity). bnd.
    reflexivity.
Qed.

Theorem transpose_runs alpha s : transpose_match src dst (zlen sa) -> disj src dst -> stored KF s src -> stored KF s dst ->
  runs (transpose_async alpha src dst (zlen sa)) s (fun s' =>
    (forall a b, inb sa a -> inb sb b -> elem s' dst (b ++ a) = o_mul alpha (elem s src (a ++ b))) /\
    frame [dst] s s').
Proof.
  intros Hm Hdj Sts Std. destruct tr_geo as [G1 G2].
  set (N := fun p : Z * Z => rsz sb bb (snd p)). set (M := fun p : Z * Z => rsz sa ba (fst p)).
  assert (HMN : forall p, In p tr_xs -> 0 < M p /\ 0 < N p).
  { intros p Hp. destruct (tr_In p Hp). split; apply rsz_pos; assumption. }
  eapply runs_weaken; [apply (acc_elem dst tr_xs (fun p => snd p + rn sb bb * fst p) (fun _ => MW)
    (fun p => [th src (fst p + rn sa ba * snd p)]) (fun _ => []) (fun _ => [])
    (fun p => wrap2 (k_transpose (M p) (N p) alpha))
    (fun p b1 _ o _ => o_mul alpha (zn (fl (nth 0 b1 (BF []))) (cz [N p; M p] 1 o + M p * cz [N p; M p] 0 o))) s); auto|].
  - apply transpose_tasks. assumption.
  - intros p Hp. apply tr_dst, Hp.
  - intros p h Hp [[<-|[]]|[[]|[]]] Hin. apply (Hdj (th src (fst p + rn sa ba * snd p))); [|assumption].
    apply th_In; [assumption|apply tr_src, Hp].
  - intros p st d sc Hp Hti Hl Hsc. destruct sc; [|discriminate]. exists []. split; [|reflexivity].
    destruct (tr_src p Hp) as (S1 & S2 & S3). destruct (tr_dst p Hp) as (D1 & D2). destruct (HMN p Hp).
    destruct (bufF s st src _ Hti Sts S1) as (l & El & Hll). cbn [map nth]. rewrite El. cbn [app wrap2 fl].
    fold (M p) (N p) in S3, D2. rewrite k_transpose_ok by (auto; congruence). bnd. rewrite D2. reflexivity.
  - intros s' _ [H1 H2]. split; [|assumption]. intros a b Ha Hb.
    pose proof (rtl_bound G1 a Ha) as Ba. pose proof (rtl_bound G2 b Hb) as Bb.
    pose proof (rof_bound G1 a Ha) as Oa. pose proof (rof_bound G2 b Hb) as Ob.
    assert (Hi : inb (t_shape dst) (b ++ a)) by (rewrite Eds; apply inb_app; assumption).
    rewrite H1 by assumption.
    assert (Et : etile dst (b ++ a) = rtl sb bb b + rn sb bb * rtl sa ba a).
    { unfold etile. rewrite Eds, Edb. apply (rtl_app G2). assumption. }
    assert (Eo : eoff dst (b ++ a) = rof sb bb b + rsz sb bb (rtl sb bb b) * rof sa ba a).
    { unfold eoff. rewrite Eds, Edb. apply (rof_app G2). assumption. }
    assert (Et' : etile src (a ++ b) = rtl sa ba a + rn sa ba * rtl sb bb b).
    { unfold etile. rewrite Ess, Esb. apply (rtl_app G1). assumption. }
    assert (Eo' : eoff src (a ++ b) = rof sa ba a + rsz sa ba (rtl sa ba a) * rof sb bb b).
    { unfold eoff. rewrite Ess, Esb. apply (rof_app G1). assumption. }
    rewrite (fold_single _ _ (rtl sa ba a, rtl sb bb b)).
    + cbn [map nth fst snd]. unfold elem. rewrite Et', Eo', Eo. unfold M, N. cbn [fst snd].
      destruct (cz2 (rsz sb bb (rtl sb bb b)) (rsz sa ba (rtl sa ba a)) (rof sb bb b) (rof sa ba a) Ob Oa) as (-> & -> & _).
      reflexivity.
    + apply filter_single.
      * apply NoDup_prod; apply NoDup_zrange.
      * apply in_prod; apply zrange_In; assumption.
      * cbn [fst snd]. rewrite Et. apply Z.eqb_refl.
      * intros [i j] Hp Hf. apply Z.eqb_eq in Hf. cbn [fst snd] in Hf. rewrite Et in Hf.
        destruct (tr_In _ Hp) as [Hi' Hj']. cbn [fst snd] in *.
        assert (j = rtl sb bb b /\ i = rtl sa ba a) as [-> ->]; [|reflexivity].
        destruct (cz2 _ _ _ _ Hj' Hi') as (C0 & C1 & _).
        destruct (cz2 _ _ _ _ Bb Ba) as (C0' & C1' & _).
        rewrite Hf in C0, C1. rewrite C0' in C0. rewrite C1' in C1. auto.
Qed.
End Run.
End TR.
