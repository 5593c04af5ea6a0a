(** * A tensor and its fiber (one axis and trailing batch axes kept) *)
From Verif Require Import Base Spec Geometry Traits TraitsProofs Runtime Ops TensorSem ElemGeneric OneOut Concrete
  Axis AccRuns Loops SliceOps SliceGeo SliceProofs FiberOps.

(** [small] has the shape and tiling of [big] restricted to [axis] and the last [b] dimensions
    (which do not contain [axis]). *)
Definition fiber_match (big small : tensor) (axis b : Z) : Prop :=
  0 <= b /\ 0 <= axis < zlen (t_shape big) - b /\
  t_shape small = fib axis b (t_shape big) /\ t_base small = fib axis b (t_base big).

Lemma split4 {A} (l : list A) a b : 0 <= b -> 0 <= a < zlen l - b ->
  exists l1 x l2 l3, l = l1 ++ x :: l2 ++ l3 /\ zlen l1 = a /\ zlen l3 = b.
Proof.
  intros Hb Ha. destruct (split_at l a) as (l1 & x & l' & -> & E1); [lia|].
  rewrite zlen_app, zlen_cons in Ha. destruct (split_le l' (zlen l' - b)) as (l2 & l3 & -> & E2); [lia|].
  rewrite zlen_app in *. exists l1, x, l2, l3. repeat split; lia.
Qed.

Lemma fib_map2 (f : Z -> Z -> Z) a b l k : zlen l = zlen k -> 0 <= b -> 0 <= a < zlen l - b ->
  map2 f (fib a b l) (fib a b k) = fib a b (map2 f l k).
Proof.
  intros Hl Hb Ha. destruct (split4 l a b Hb Ha) as (l1 & x & l2 & l3 & -> & H1 & H3).
  rewrite Hl in Ha. destruct (split4 k a b Hb Ha) as (k1 & y & k2 & k3 & -> & K1 & K3).
  assert (E1 : List.length l1 = List.length k1) by (unfold zlen in *; lia).
  rewrite !zlen_app, !zlen_cons, !zlen_app in Hl.
  assert (E2 : List.length l2 = List.length k2) by (unfold zlen in *; lia).
  assert (E3 : List.length l3 = List.length k3) by (unfold zlen in *; lia).
  rewrite !fib_app by assumption. rewrite map2_app by assumption. cbn [map2]. rewrite map2_app by assumption.
  rewrite fib_app; [reflexivity| |]; unfold zlen in *; rewrite map2_length; assumption.
Qed.
Lemma fib_tshape a b s bs t : zlen s = zlen bs -> zlen s = zlen t -> 0 <= b -> 0 <= a < zlen s - b ->
  tshape (fib a b s) (fib a b bs) (fib a b t) = fib a b (tshape s bs t).
Proof.
  intros Hl Ht Hb Ha. destruct (split4 s a b Hb Ha) as (l1 & x & l2 & l3 & -> & H1 & H3).
  destruct (split4 bs a b Hb) as (k1 & y & k2 & k3 & -> & K1 & K3); [lia|].
  destruct (split4 t a b Hb) as (t1 & z & t2 & t3 & -> & T1 & T3); [lia|].
  assert (E1 : List.length l1 = List.length k1) by (unfold zlen in *; lia).
  assert (E1' : List.length l1 = List.length t1) by (unfold zlen in *; lia).
  rewrite !zlen_app, !zlen_cons, !zlen_app in Hl, Ht.
  assert (E2 : List.length l2 = List.length k2) by (unfold zlen in *; lia).
  assert (E2' : List.length l2 = List.length t2) by (unfold zlen in *; lia).
  assert (E3 : List.length l3 = List.length k3) by (unfold zlen in *; lia).
  assert (E3' : List.length l3 = List.length t3) by (unfold zlen in *; lia).
  rewrite !fib_app by assumption. rewrite tshape_app by assumption. cbn [tshape]. rewrite tshape_app by assumption.
  rewrite fib_app; [reflexivity| |]; unfold zlen in *; rewrite tshape_length; assumption.
Qed.
Lemma zlen_fib a b l : 0 <= b -> 0 <= a < zlen l - b -> zlen (fib a b l) = b + 1.
Proof.
  intros Hb Ha. destruct (split4 l a b Hb Ha) as (l1 & x & l2 & l3 & -> & H1 & H3). rewrite fib_app by assumption.
  rewrite zlen_cons. lia.
Qed.
Lemma zn_fib0 a b l : zn (fib a b l) 0 = zn l a.
Proof. reflexivity. Qed.
Lemma zn_fibS a b l j : 0 <= b -> 0 <= a < zlen l - b -> 0 <= j < b -> zn (fib a b l) (j + 1) = zn l (zlen l - b + j).
Proof.
  intros Hb Ha Hj. destruct (split4 l a b Hb Ha) as (l1 & x & l2 & l3 & -> & H1 & H3). rewrite fib_app by assumption.
  rewrite zn_consS by lia. rewrite zlen_app, zlen_cons, zlen_app.
  pose proof (zlen_nonneg l1). pose proof (zlen_nonneg l2).
  replace (zlen l1 + (1 + (zlen l2 + zlen l3)) - b + j) with (zlen l1 + (zlen l2 + j + 1)) by lia.
  rewrite zn_app2 by lia. replace (zlen l1 + (zlen l2 + j + 1) - zlen l1) with (zlen l2 + j + 1) by lia.
  rewrite zn_consS by lia. rewrite zn_app2 by lia. f_equal. lia.
Qed.
Lemma inb_fib a b s i : 0 <= b -> 0 <= a < zlen s - b -> inb s i -> inb (fib a b s) (fib a b i).
Proof.
  intros Hb Ha Hi. destruct (split4 s a b Hb Ha) as (l1 & x & l2 & l3 & -> & H1 & H3).
  apply inb_split in Hi as (i1 & l & i2 & -> & Hl1 & G1 & G2 & G3).
  apply inb_app_inv_l in G3 as (i3 & i4 & -> & G4 & G5).
  rewrite !fib_app; try assumption; try (rewrite <- (inb_zlen _ _ G5)); try lia. constructor; assumption.
Qed.
Lemma fib_eq a b l k : 0 <= b -> 0 <= a < zlen l - b ->
  (k = fib a b l <-> zlen k = b + 1 /\ zn k 0 = zn l a /\ forall i, 0 <= i < b -> zn k (i + 1) = zn l (zlen l - b + i)).
Proof.
  intros Hb Ha. split.
  - intros ->. split; [apply zlen_fib; assumption|]. split; [reflexivity|]. intros i Hi. apply zn_fibS; assumption.
  - intros (Hl & H0 & HS). apply list_ext; [rewrite zlen_fib by assumption; assumption|].
    intros i Hi. destruct (Z.eq_dec i 0) as [->|]; [rewrite zn_fib0; assumption|].
    replace i with (i - 1 + 1) by ring. rewrite HS, zn_fibS by lia. reflexivity.
Qed.

Lemma fiber_tail_checks big small axis b : wft big -> wft small -> 0 <= b -> zlen (t_shape small) = b + 1 ->
  checks (fiber_match big small axis b) (fiber_check_tail big small axis b).
Proof.
  intros HB HS Hb Hl. unfold fiber_check_tail. rewrite !t_ndim_eq by assumption.
  pose proof (wf_len _ HB) as Lb. pose proof (wf_len _ HS) as Ls. set (n := zlen (t_shape big)) in *.
  set (P0 := zn (t_shape small) 0 = zn (t_shape big) axis /\ zn (t_base small) 0 = zn (t_base big) axis).
  set (P1 := forall i, 0 <= i < b -> zn (t_shape small) (i + 1) = zn (t_shape big) (n - b + i) /\
     zn (t_base small) (i + 1) = zn (t_base big) (n - b + i)).
  apply (checks_iff (0 <= axis /\ axis < n - b /\ P0 /\ P1)).
  { unfold fiber_match. split.
    - intros (H1 & H2 & (H3 & H4) & H5). split; [assumption|]. split; [fold n; lia|].
      split; apply fib_eq; fold n; try lia.
      + split; [assumption|]. split; [assumption|]. intros i Hi. apply H5. assumption.
      + split; [lia|]. split; [assumption|]. intros i Hi. rewrite Lb. apply H5. assumption.
    - intros (_ & H1 & H2 & H3). fold n in H1. apply fib_eq in H2; [|assumption|fold n; lia]. apply fib_eq in H3; [|assumption|lia].
      destruct H2 as (_ & A1 & A2), H3 as (_ & A3 & A4). split; [lia|]. split; [lia|]. split; [split; assumption|].
      intros i Hi. rewrite Lb in A4. split; auto. }
  apply checks_if; [intros X; apply Z.ltb_lt in X; lia|intros X; apply Z.ltb_ge in X; lia|]. intros H1.
  apply checks_if; [rewrite Z.geb_leb; intros X; apply Z.leb_le in X; lia|rewrite Z.geb_leb; intros X; apply Z.leb_gt in X; lia|].
  intros H2. apply checks_seq; [apply check_dim_checks; auto; fold n; lia|]. intros _.
  apply checks_for. intros i Hi. apply check_dim_checks; auto; fold n; lia.
Qed.

Lemma fiber_check_checks big small axis b : wft big -> wft small -> 0 <= b ->
  checks (fiber_match big small axis b) (fiber_check big small axis b).
Proof.
  intros HB HS Hb. unfold fiber_check. rewrite t_ndim_eq by assumption.
  apply (checks_iff (zlen (t_shape small) = b + 1 /\ fiber_match big small axis b)).
  { split; [tauto|]. intros Hm. split; [|assumption]. destruct Hm as (_ & Ha & -> & _). apply zlen_fib; assumption. }
  apply checks_eq. intros E. apply fiber_tail_checks; assumption.
Qed.
Lemma sum_fiber_checks src dst axis b : wft src -> wft dst -> 0 <= b ->
  checks (fiber_match src dst axis b) (sum_fiber_check src dst axis b).
Proof.
  intros HB HS Hb. unfold sum_fiber_check. rewrite !t_ndim_eq by assumption.
  apply (checks_iff (zlen (t_shape dst) = b + 1 /\ zlen (t_shape src) <> 0 /\ fiber_match src dst axis b)).
  { split; [tauto|]. intros Hm. split; [|split; [|assumption]]; destruct Hm as (_ & Ha & E & _); [rewrite E; apply zlen_fib; assumption|lia]. }
  apply checks_eq. intros E. apply checks_if; [intros X; apply Z.eqb_eq in X; lia|intros X; apply Z.eqb_neq in X; lia|].
  intros _. apply fiber_tail_checks; assumption.
Qed.
Lemma fiber1_checks big small axis Q k : wft big -> wft small -> zlen (t_shape small) = 1 ->
  (fiber_match big small axis 0 -> checks Q k) ->
  checks (fiber_match big small axis 0 /\ Q) (fiber1_check big small axis k).
Proof.
  intros HB HS Hl Hk. unfold fiber1_check. rewrite !t_ndim_eq by assumption.
  pose proof (wf_len _ HB) as Lb. pose proof (wf_len _ HS) as Ls. set (n := zlen (t_shape big)) in *.
  set (P0 := zn (t_shape small) 0 = zn (t_shape big) axis /\ zn (t_base small) 0 = zn (t_base big) axis).
  assert (EQ : 0 <= axis -> axis < n -> P0 <-> fiber_match big small axis 0).
  { intros H1 H2. unfold fiber_match. fold n. split.
    - intros (H3 & H4). split; [lia|]. split; [lia|]. split; apply fib_eq; fold n; try lia.
      + split; [assumption|]. split; [assumption|]. intros i Hi. lia.
      + split; [lia|]. split; [assumption|]. intros i Hi. lia.
    - intros (_ & _ & H3 & H4). unfold P0. rewrite H3, H4. split; reflexivity. }
  apply (checks_iff (0 <= axis /\ axis < n /\ P0 /\ Q)).
  { split.
    - intros (H1 & H2 & H3 & H4). split; [apply EQ; assumption|assumption].
    - intros (Hm & HQ). pose proof Hm as (_ & Ha & _). fold n in Ha. split; [lia|]. split; [lia|]. split; [apply EQ; auto; lia|assumption]. }
  apply checks_if; [intros X; apply Z.ltb_lt in X; lia|intros X; apply Z.ltb_ge in X; lia|]. intros H1.
  apply checks_if; [rewrite Z.geb_leb; intros X; apply Z.leb_le in X; lia|rewrite Z.geb_leb; intros X; apply Z.leb_gt in X; lia|].
  intros H2. apply checks_seq; [apply check_dim_checks; auto; fold n; lia|]. intros H3. apply Hk. apply EQ; assumption.
Qed.

Lemma fiber_index_ok big small axis b l : wft big -> wft small -> fiber_match big small axis b -> zlen l = zlen (t_shape big) ->
  fiber_index big small axis b l = Ok (fib axis b l).
Proof.
  intros HB HS (Hb & Ha & E1 & _) Hl. unfold fiber_index. rewrite !t_ndim_eq by assumption. rewrite E1, zlen_fib by assumption.
  rewrite rd_ok' by lia. set (n := zlen (t_shape big)) in *.
  assert (Hz : zlen (zrep (b + 1) 0) = b + 1) by (apply zlen_zrep; lia).
  destruct (wr_ok (zrep (b + 1) 0) 0 (zn l axis)) as (v & E & Hv & Hvz); [lia|]. rewrite E. bnd.
  match goal with |- for_ 0 b ?bd v = _ =>
    destruct (for_inv (fun k w => zlen w = b + 1 /\ zn w 0 = zn l axis /\ forall i, 0 <= i < k -> zn w (i + 1) = zn l (n - b + i))
      0 b bd v) as (w & Ew & Hw0 & Hw1 & Hw2) end.
  - lia.
  - split; [lia|]. split; [rewrite Hvz by lia; reflexivity|]. intros; lia.
  - intros i w Hi (W0 & W1 & W2). rewrite rd_ok' by lia.
    destruct (wr_ok w (i + 1) (zn l (n - b + i))) as (w' & E' & Hl' & Hz'); [lia|]. exists w'. split; [assumption|].
    split; [lia|]. split; [rewrite Hz' by lia; destruct (Z.eqb_spec 0 (i + 1)); [lia|assumption]|].
    intros j Hj. rewrite Hz' by lia. destruct (Z.eqb_spec (j + 1) (i + 1)) as [Ej|]; [replace j with i by lia; reflexivity|].
    apply W2. lia.
  - rewrite Ew. f_equal. apply fib_eq; [assumption|lia|]. rewrite Hl. auto.
Qed.

(** *** Four-dimensional view of a tile: before the axis, the axis, after it, batch *)
Definition dim4 (a b : Z) (sh : list Z) : list Z :=
  [prodZ (firstn (Z.to_nat a) sh); zn sh a; prodZ (skipn (Z.to_nat a + 1) sh) / prodZ (skipn (Z.to_nat (zlen sh - b)) sh);
   prodZ (skipn (Z.to_nat (zlen sh - b)) sh)].

Lemma dim4_app a b l1 x l2 l3 : zlen l1 = a -> zlen l3 = b -> pos l3 ->
  dim4 a b (l1 ++ x :: l2 ++ l3) = [prodZ l1; x; prodZ l2; prodZ l3].
Proof.
  intros H1 H3 P3. unfold dim4.
  rewrite firstn_mid, zn_mid, skipn_mid by assumption.
  replace (l1 ++ x :: l2 ++ l3) with ((l1 ++ x :: l2) ++ l3) by (rewrite <- app_assoc; reflexivity).
  rewrite skipn_app_len by (rewrite zlen_app; unfold zlen in *; lia). rewrite prodZ_app.
  rewrite Z.div_mul; [reflexivity|]. pose proof (prodZ_pos _ P3). lia.
Qed.

Section G.
Variables (big small : tensor) (axis b : Z).
Hypothesis (Hb : wft big) (Hs : wft small) (Hm : fiber_match big small axis b).
Let gb := gridZ (t_shape big) (t_base big).
Let gs := gridZ (t_shape small) (t_base small).
Let Hb0 : 0 <= b := proj1 Hm.
Let Ha : 0 <= axis < zlen (t_shape big) - b := proj1 (proj2 Hm).
(** tile of [small] under tile i of [big] *)
Definition fg_out (i : Z) : Z :=
  off (gridZ (t_shape small) (t_base small)) (fib axis b (unoff (gridZ (t_shape big) (t_base big)) i)).

Lemma fgs_eq : gs = fib axis b gb.
Proof.
  unfold gs, gb. destruct (id Hm) as (_ & _ & -> & ->). apply fib_map2; [symmetry; apply wf_len; assumption|assumption|assumption].
Qed.
Lemma zlen_fgb : zlen gb = zlen (t_shape big).
Proof. unfold gb. apply zlen_gb. assumption. Qed.
Lemma fg_inb i : 0 <= i < ntiles big -> inb gs (fib axis b (unoff gb i)).
Proof.
  intros Hi. rewrite fgs_eq. apply inb_fib; [assumption|rewrite zlen_fgb; assumption|].
  apply unoff_inb; [apply wf_pg; assumption|assumption].
Qed.
Lemma fg_bound i : 0 <= i < ntiles big -> 0 <= fg_out i < ntiles small.
Proof. intros Hi. apply off_bound. apply fg_inb. assumption. Qed.
Lemma fg_tsh i : 0 <= i < ntiles big -> tsh small (fg_out i) = fib axis b (tsh big i).
Proof.
  intros Hi. unfold tsh, fg_out. fold gb gs. rewrite unoff_off by (apply fg_inb; assumption).
  destruct (id Hm) as (_ & _ & -> & ->). apply fib_tshape; [symmetry; apply wf_len; assumption| |assumption|assumption].
  rewrite zlen_unoff. symmetry. apply zlen_fgb.
Qed.

Lemma fg_view i : 0 <= i < ntiles big ->
  exists s1 k s2 s3, tsh big i = s1 ++ k :: s2 ++ s3 /\ zlen s1 = axis /\ zlen s3 = b /\ pos s1 /\ 0 < k /\ pos s2 /\ pos s3 /\
    dim4 axis b (tsh big i) = [prodZ s1; k; prodZ s2; prodZ s3] /\ tsh small (fg_out i) = k :: s3.
Proof.
  intros Hi. destruct (split4 (tsh big i) axis b) as (s1 & k & s2 & s3 & E & L1 & L3); [assumption|rewrite zlen_tsh by assumption; assumption|].
  pose proof (tsh_pos _ _ Hb Hi) as P. rewrite E in P. apply pos_app in P as [P1 P]. inversion P as [|? ? Pk P']; subst.
  apply pos_app in P' as [P2 P3].
  exists s1, k, s2, s3. split; [assumption|]. repeat (split; [assumption || reflexivity|]). split.
  - rewrite E. apply dim4_app; auto.
  - rewrite fg_tsh by assumption. rewrite E. apply fib_app; auto.
Qed.

Lemma fg_sizes i : 0 <= i < ntiles big ->
  let d := dim4 axis b (tsh big i) in
  0 < zn d 0 /\ 0 < zn d 1 /\ 0 < zn d 2 /\ 0 < zn d 3 /\
  tsz big i = zn d 0 * (zn d 1 * (zn d 2 * zn d 3)) /\ tsz small (fg_out i) = zn d 1 * zn d 3 /\
  tile_mnk (tt_of (tsh big i)) axis = Ok (zn d 0, zn d 2 * zn d 3, zn d 1) /\
  exists x, rd (tt_ms (tt_of (tsh small (fg_out i)))) 1 = Ok (x, zn d 3).
Proof.
  intros Hi d. destruct (fg_view i Hi) as (s1 & k & s2 & s3 & E & L1 & L3 & P1 & Pk & P2 & P3 & Ed & Es).
  unfold d. rewrite Ed.
  change (zn [prodZ s1; k; prodZ s2; prodZ s3] 0) with (prodZ s1). change (zn [prodZ s1; k; prodZ s2; prodZ s3] 1) with k.
  change (zn [prodZ s1; k; prodZ s2; prodZ s3] 2) with (prodZ s2). change (zn [prodZ s1; k; prodZ s2; prodZ s3] 3) with (prodZ s3).
  pose proof (prodZ_pos _ P1). pose proof (prodZ_pos _ P2). pose proof (prodZ_pos _ P3).
  repeat (split; [assumption|]). split; [|split; [|split]].
  - unfold tsz. rewrite E. rewrite prodZ_app. cbn [prodZ]. rewrite prodZ_app. reflexivity.
  - unfold tsz. rewrite Es. reflexivity.
  - rewrite tile_mnk_ok by (rewrite zlen_tsh by assumption; lia). rewrite E. rewrite dim3_app by assumption.
    rewrite prodZ_app. reflexivity.
  - rewrite Es. cbn [tt_of tt_ms]. rewrite rd_ok by (rewrite zlen_ztab; rewrite ?zlen_cons; pose proof (zlen_nonneg s3); lia).
    rewrite zn_ztab by (rewrite zlen_cons; pose proof (zlen_nonneg s3); lia). eexists. reflexivity.
Qed.

Lemma fg_geo idx : inb (t_shape big) idx ->
  let i := etile big idx in let d := dim4 axis b (tsh big i) in
  inb (t_shape small) (fib axis b idx) /\ etile small (fib axis b idx) = fg_out i /\
  exists o0 l o2 o3, 0 <= o0 < zn d 0 /\ 0 <= l < zn d 1 /\ 0 <= o2 < zn d 2 /\ 0 <= o3 < zn d 3 /\
    eoff big idx = o0 + zn d 0 * (l + zn d 1 * (o2 + zn d 2 * o3)) /\ eoff small (fib axis b idx) = l + zn d 1 * o3.
Proof.
  intros Hi i d. pose proof (wf_len _ Hb) as Hl. pose proof (inb_zlen _ _ Hi) as Hzi.
  assert (Hsm : inb (t_shape small) (fib axis b idx)).
  { destruct (id Hm) as (_ & _ & -> & _). apply inb_fib; assumption. }
  pose proof (etile_bound _ _ Hb Hi) as Hib. fold i in Hib.
  assert (Ht : tile_of (t_base small) (fib axis b idx) = fib axis b (tile_of (t_base big) idx)).
  { destruct (id Hm) as (_ & _ & _ & ->). unfold tile_of. apply fib_map2; try assumption; lia. }
  assert (Hit : in_tile (t_base small) (fib axis b idx) = fib axis b (in_tile (t_base big) idx)).
  { destruct (id Hm) as (_ & _ & _ & ->). unfold in_tile. apply fib_map2; try assumption; lia. }
  assert (Het : etile small (fib axis b idx) = fg_out i).
  { unfold etile, fg_out, i, etile. fold gb gs. rewrite unoff_off by (apply tile_of_inb; auto using wf_len', wf_pb). rewrite Ht. reflexivity. }
  split; [assumption|]. split; [assumption|].
  destruct (fg_view i Hib) as (s1 & k & s2 & s3 & E & L1 & L3 & P1 & Pk & P2 & P3 & Ed & Es).
  unfold d. rewrite Ed.
  change (zn [prodZ s1; k; prodZ s2; prodZ s3] 0) with (prodZ s1). change (zn [prodZ s1; k; prodZ s2; prodZ s3] 1) with k.
  change (zn [prodZ s1; k; prodZ s2; prodZ s3] 2) with (prodZ s2). change (zn [prodZ s1; k; prodZ s2; prodZ s3] 3) with (prodZ s3).
  assert (He : inb (tsh big i) (in_tile (t_base big) idx)).
  { unfold i. rewrite tsh_etile by assumption. apply in_tile_inb; auto using wf_len', wf_pb. }
  assert (Eo : eoff big idx = off (tsh big i) (in_tile (t_base big) idx)).
  { unfold eoff. rewrite <- tsh_etile by assumption. reflexivity. }
  assert (Eo' : eoff small (fib axis b idx) = off (k :: s3) (fib axis b (in_tile (t_base big) idx))).
  { unfold eoff. rewrite <- tsh_etile by assumption. rewrite Het, Es, Hit. reflexivity. }
  rewrite Eo, Eo'. rewrite E in He |- *. apply inb_split in He as (i1 & l & i2 & Ee & Hl1 & G1 & G2 & G3).
  apply inb_app_inv_l in G3 as (i3 & i4 & -> & G4 & G5). rewrite Ee.
  exists (off s1 i1), l, (off s2 i3), (off s3 i4).
  split; [apply off_bound; assumption|]. split; [assumption|]. split; [apply off_bound; assumption|]. split; [apply off_bound; assumption|].
  split.
  - rewrite off_app by (apply inb_length; assumption). cbn [off]. rewrite off_app by (apply inb_length; assumption). reflexivity.
  - rewrite fib_app; [reflexivity|congruence|]. rewrite <- (inb_zlen _ _ G5). assumption.
Qed.

(** Elements of tile i of [big] that lie over element [d] of [small]. *)
Lemma fg_up d i i0 i1 : inb (t_shape small) d -> 0 <= i < ntiles big -> fg_out i = etile small d ->
  let q := dim4 axis b (tsh big i) in
  let l := cz [zn q 1; zn q 3] 0 (eoff small d) in let p := cz [zn q 1; zn q 3] 1 (eoff small d) in
  0 <= i0 < zn q 0 -> 0 <= i1 < zn q 2 ->
  let o := i0 + zn q 0 * (l + zn q 1 * (i1 + zn q 2 * p)) in
  0 <= o < tsz big i /\ fib axis b (eidx big i o) = d.
Proof.
  intros Hd Hi Ei q l p H0 H1 o. destruct (fg_sizes i Hi) as (Q0 & Q1 & Q2 & Q3 & Z1 & Z2 & _). fold q in Q0, Q1, Q2, Q3, Z1, Z2.
  pose proof (eoff_bound small d Hs Hd) as Ho. rewrite <- Ei in Ho. rewrite Z2 in Ho.
  destruct (cz2_inv _ _ _ Q1 Q3 Ho) as (C0 & C1 & C2). fold l p in C0, C1, C2.
  destruct (cz4 _ _ _ _ _ _ _ _ H0 C0 H1 C1) as (D0 & D1 & D2 & D3 & D4). fold o in D0, D1, D2, D3, D4.
  assert (Hob : 0 <= o < tsz big i) by lia. split; [assumption|].
  destruct (eidx_spec big i o Hb Hi Hob) as (I1 & I2 & I3).
  destruct (fg_geo _ I1) as (J1 & J2 & o0 & l' & o2 & o3 & B0 & B1 & B2 & B3 & J3 & J4). rewrite I2 in *. fold q in B0, B1, B2, B3, J3, J4.
  rewrite I3 in J3. destruct (cz4 _ _ _ _ _ _ _ _ B0 B1 B2 B3) as (F0 & F1 & F2 & F3 & _). rewrite <- J3 in F0, F1, F2, F3.
  rewrite <- (eidx_of small (fib axis b (eidx big i o))) by assumption. rewrite <- (eidx_of small d) by assumption.
  rewrite J2, Ei. f_equal. rewrite J4, <- C2. congruence.
Qed.
End G.
