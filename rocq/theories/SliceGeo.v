(** * A tensor and its slice (one axis dropped): how tiles and elements correspond *)
From Verif Require Import Base Spec Geometry Traits TraitsProofs Runtime Ops TensorSem ElemGeneric OneOut
  Axis AccRuns Loops SliceOps.

(** [small] has the shape and tiling of [big] with [axis] dropped. *)
Definition slice_match (big small : tensor) (axis : Z) : Prop :=
  0 <= axis < zlen (t_shape big) /\
  t_shape small = del axis (t_shape big) /\ t_base small = del axis (t_base big).

Lemma zn_del a l i : 0 <= a < zlen l -> 0 <= i < zlen l - 1 ->
  zn (del a l) i = if i <? a then zn l i else zn l (i + 1).
Proof.
  intros Ha Hi. destruct (split_at l a Ha) as (l1 & x & l2 & -> & E). rewrite del_app by assumption.
  rewrite zlen_app, zlen_cons in *. destruct (Z.ltb_spec i a).
  - rewrite !zn_app1 by lia. reflexivity.
  - rewrite !zn_app2 by lia. rewrite zn_consS by lia. f_equal. lia.
Qed.

Lemma del_eq a l k : 0 <= a < zlen l ->
  (k = del a l <-> zlen l = zlen k + 1 /\ (forall i, 0 <= i < a -> zn l i = zn k i) /\
     (forall i, a + 1 <= i < zlen l -> zn l i = zn k (i - 1))).
Proof.
  intros Ha. split.
  - intros ->. rewrite zlen_del by assumption. split; [lia|]. split; intros i Hi; rewrite zn_del by lia.
    + destruct (Z.ltb_spec i a); [reflexivity|lia].
    + destruct (Z.ltb_spec (i - 1) a); [lia|]. f_equal. lia.
  - intros (Hl & H1 & H2). apply list_ext; [rewrite zlen_del; lia|]. intros i Hi. rewrite zn_del by lia.
    destruct (Z.ltb_spec i a); [symmetry; apply H1; lia|]. rewrite H2 by lia. f_equal. lia.
Qed.

Lemma rd_ok' {A} `{Dflt A} {B} (l : list A) i (f : A -> res B) : 0 <= i < zlen l -> bind (rd l i) f = f (zn l i).
Proof. intros Hi. rewrite rd_ok by assumption. reflexivity. Qed.

Lemma check_dim_checks a i b j : wft a -> wft b -> 0 <= i < zlen (t_shape a) -> 0 <= j < zlen (t_shape b) ->
  checks (zn (t_shape a) i = zn (t_shape b) j /\ zn (t_base a) i = zn (t_base b) j) (check_dim a i b j).
Proof.
  intros Ha Hb Hi Hj. unfold check_dim. pose proof (wf_len _ Ha). pose proof (wf_len _ Hb).
  rewrite !rd_ok' by lia. apply checks_eq. intros _.
  apply (checks_iff (zn (t_base a) i = zn (t_base b) j /\ True)); [tauto|]. apply checks_eq. intros _. apply checks_ok.
Qed.

(** the two loops of checks around the axis *)
Lemma loops_match big small axis : wft big -> wft small -> 0 <= axis < zlen (t_shape big) ->
  zlen (t_shape big) = zlen (t_shape small) + 1 ->
  ((forall i, 0 <= i < axis -> zn (t_shape big) i = zn (t_shape small) i /\ zn (t_base big) i = zn (t_base small) i) /\
   (forall i, axis + 1 <= i < zlen (t_shape big) -> zn (t_shape big) i = zn (t_shape small) (i - 1) /\ zn (t_base big) i = zn (t_base small) (i - 1))
   <-> t_shape small = del axis (t_shape big) /\ t_base small = del axis (t_base big)).
Proof.
  intros Hb Hs Ha Hl. pose proof (wf_len _ Hb). pose proof (wf_len _ Hs).
  rewrite !del_eq by lia. rewrite H, H0. split.
  - intros [H1 H2]. repeat split; try lia; intros; try apply H1; try apply H2; lia.
  - intros ((_ & H1 & H2) & (_ & H3 & H4)). split; intros; split; auto.
Qed.

Lemma slice_check_checks big small axis Q k : wft big -> wft small ->
  (slice_match big small axis -> checks Q k) ->
  checks (slice_match big small axis /\ Q) (slice_check big small axis k).
Proof.
  intros Hb Hs Hk. unfold slice_check. rewrite !t_ndim_eq by assumption.
  set (n := zlen (t_shape big)). set (n' := zlen (t_shape small)).
  set (P1 := forall i, 0 <= i < axis -> zn (t_shape big) i = zn (t_shape small) i /\ zn (t_base big) i = zn (t_base small) i).
  set (P2 := forall i, axis + 1 <= i < n -> zn (t_shape big) i = zn (t_shape small) (i - 1) /\ zn (t_base big) i = zn (t_base small) (i - 1)).
  apply (checks_iff (n = n' + 1 /\ 0 <= axis /\ axis < n /\ P1 /\ P2 /\ Q)).
  { unfold slice_match. fold n. split.
    - intros (E & H1 & H2 & HP1 & HP2 & HQ). split; [|assumption]. split; [lia|].
      apply (loops_match big small axis); auto.
    - intros ((H1 & H2) & HQ). assert (n = n' + 1). { unfold n, n'. destruct H2 as [-> _]. rewrite zlen_del; lia. }
      apply (loops_match big small axis) in H2; auto. destruct H2. split; [assumption|]. split; [lia|]. split; [lia|auto]. }
  apply checks_eq. intros E. apply checks_if; [intros X; apply Z.ltb_lt in X; lia|intros X; apply Z.ltb_ge in X; lia|]. intros H1.
  apply checks_if; [rewrite Z.geb_leb; intros X; apply Z.leb_le in X; lia|rewrite Z.geb_leb; intros X; apply Z.leb_gt in X; lia|].
  intros H2. apply checks_seq.
  { apply checks_for. intros i Hi. apply check_dim_checks; auto; fold n n'; lia. }
  intros HP1. apply checks_seq.
  { apply checks_for. intros i Hi. apply check_dim_checks; auto; fold n n'; lia. }
  intros HP2. apply Hk. split; [fold n; lia|]. apply (loops_match big small axis); auto.
Qed.

(** *** Building the tile index *)
Lemma ins_eq a x l v : 0 <= a <= zlen l -> zlen v = zlen l + 1 -> zn v a = x ->
  (forall i, 0 <= i < a -> zn v i = zn l i) -> (forall i, a + 1 <= i < zlen v -> zn v i = zn l (i - 1)) ->
  v = ins a x l.
Proof.
  intros Ha Hl Hx H1 H2. rewrite <- (ins_del a v) by lia. rewrite Hx. f_equal.
  symmetry. apply del_eq; [lia|]. repeat split; auto.
Qed.

Lemma zn_ins_lt a x l i : 0 <= i < a -> a <= zlen l -> zn (ins a x l) i = zn l i.
Proof.
  intros Hi Ha. destruct (split_le l a) as (l1 & l2 & -> & E); [lia|]. rewrite ins_app by assumption.
  rewrite !zn_app1 by lia. reflexivity.
Qed.
Lemma zn_ins_gt a x l i : 0 <= a <= zlen l -> a < i -> zn (ins a x l) i = zn l (i - 1).
Proof.
  intros Ha Hi. destruct (split_le l a) as (l1 & l2 & -> & E); [lia|]. rewrite ins_app by assumption.
  rewrite zn_app2 by lia. rewrite zn_consS by lia. rewrite zn_app2 by lia. f_equal. lia.
Qed.

Lemma wr_ins a x y l : 0 <= a <= zlen l -> wr (ins a x l) a y = Ok (ins a y l).
Proof.
  intros Ha. pose proof (zlen_ins a x l Ha) as Hl.
  destruct (wr_ok (ins a x l) a y) as (v & E & Hv & Hz); [lia|]. rewrite E. f_equal.
  apply ins_eq; [lia|lia| | |].
  - rewrite Hz by lia. rewrite Z.eqb_refl. reflexivity.
  - intros i Hi. rewrite Hz by lia. destruct (Z.eqb_spec i a); [lia|]. apply zn_ins_lt; lia.
  - intros i Hi. rewrite Hz by lia. destruct (Z.eqb_spec i a); [lia|]. apply zn_ins_gt; lia.
Qed.

Lemma fill_lo (l : list Z) a v : 0 <= a <= zlen l -> a <= zlen v ->
  exists v', for_ 0 a (fun j v => x <- rd l j ;; wr v j x) v = Ok v' /\ zlen v' = zlen v /\
    (forall i, 0 <= i -> zn v' i = if i <? a then zn l i else zn v i).
Proof.
  intros Ha Hv.
  destruct (for_inv (fun k v' => zlen v' = zlen v /\ forall i, 0 <= i -> zn v' i = if i <? k then zn l i else zn v i)
    0 a (fun j v => x <- rd l j ;; wr v j x) v) as (v' & E & H); [lia| | |].
  - split; [reflexivity|]. intros i Hi. destruct (Z.ltb_spec i 0); [lia|reflexivity].
  - intros i st Hi [Hl Hz]. rewrite rd_ok' by lia.
    destruct (wr_ok st i (zn l i)) as (st' & E & Hl' & Hz'); [lia|]. exists st'. split; [assumption|]. split; [lia|].
    intros j Hj. rewrite Hz' by assumption. destruct (Z.eqb_spec j i) as [->|].
    + destruct (Z.ltb_spec i (i + 1)); [reflexivity|lia].
    + rewrite Hz by assumption. destruct (Z.ltb_spec j i), (Z.ltb_spec j (i + 1)); reflexivity || lia.
  - exists v'. split; [assumption|exact H].
Qed.
Lemma fill_hi (l : list Z) a n v : 0 <= a -> a + 1 <= n -> n - 1 <= zlen l -> n <= zlen v ->
  exists v', for_ (a + 1) n (fun j v => x <- rd l (j - 1) ;; wr v j x) v = Ok v' /\ zlen v' = zlen v /\
    (forall i, 0 <= i -> zn v' i = if (a <? i) && (i <? n) then zn l (i - 1) else zn v i).
Proof.
  intros Ha Han Hn Hv.
  destruct (for_inv (fun k v' => zlen v' = zlen v /\ forall i, 0 <= i -> zn v' i = if (a <? i) && (i <? k) then zn l (i - 1) else zn v i)
    (a + 1) n (fun j v => x <- rd l (j - 1) ;; wr v j x) v) as (v' & E & H); [lia| | |].
  - split; [reflexivity|]. intros i Hi. destruct (Z.ltb_spec a i), (Z.ltb_spec i (a + 1)); try reflexivity; lia.
  - intros i st Hi [Hl Hz]. rewrite rd_ok' by lia.
    destruct (wr_ok st i (zn l (i - 1))) as (st' & E & Hl' & Hz'); [lia|]. exists st'. split; [assumption|]. split; [lia|].
    intros j Hj. rewrite Hz' by assumption. destruct (Z.eqb_spec j i) as [->|].
    + destruct (Z.ltb_spec a i), (Z.ltb_spec i (i + 1)); try reflexivity; lia.
    + rewrite Hz by assumption. destruct (Z.ltb_spec a j), (Z.ltb_spec j i), (Z.ltb_spec j (i + 1)); try reflexivity; lia.
  - exists v'. split; [assumption|exact H].
Qed.

Lemma slice_index_ok big axis l : wft big -> 0 <= axis < zlen (t_shape big) -> zlen l = zlen (t_shape big) - 1 ->
  slice_index big axis l = Ok (ins axis 0 l).
Proof.
  intros Hb Ha Hl. unfold slice_index. rewrite t_ndim_eq by assumption. set (n := zlen (t_shape big)) in *.
  assert (Hz : zlen (zrep n 0) = n) by (apply zlen_zrep; lia).
  destruct (fill_lo l axis (zrep n 0)) as (v & E & Hv & Hvz); [lia|lia|]. rewrite E. bnd.
  destruct (fill_hi l axis n v) as (v' & E' & Hv' & Hvz'); [lia|lia|lia|lia|]. rewrite E'. f_equal.
  apply ins_eq; [lia|lia| | |].
  - rewrite Hvz', Hvz by lia. destruct (Z.ltb_spec axis axis); [lia|]. cbn [andb]. apply zn_zrep. lia.
  - intros i Hi. rewrite Hvz' by lia. destruct (Z.ltb_spec axis i); [lia|]. cbn [andb]. rewrite Hvz by lia.
    destruct (Z.ltb_spec i axis); [reflexivity|lia].
  - intros i Hi. rewrite Hvz' by lia. destruct (Z.ltb_spec axis i); [|lia]. destruct (Z.ltb_spec i n); [reflexivity|lia].
Qed.

Lemma slice_index2_ok src axis l : wft src -> 0 <= axis < zlen (t_shape src) -> zlen l = zlen (t_shape src) - 1 ->
  slice_index2 src axis l = Ok (ins axis 0 l).
Proof.
  intros Hb Ha Hl. unfold slice_index2. rewrite t_ndim_eq by assumption. set (n := zlen (t_shape src)) in *.
  match goal with |- context [for_ 0 n ?b ?s] =>
    destruct (for_inv (fun k '(v, p) => p = (if k <=? axis then k else k - 1) /\ zlen v = n /\
      forall i, 0 <= i < n -> zn v i = if k <=? i then 0 else zn (ins axis 0 l) i) 0 n b s) as ([v p] & E & H)
  end; [lia| | |].
  - split; [destruct (Z.leb_spec 0 axis); lia|]. split; [apply zlen_zrep; lia|]. intros i Hi.
    destruct (Z.leb_spec 0 i); [apply zn_zrep; lia|lia].
  - intros i [v p] Hi (Hp & Hv & Hz). destruct (Z.eqb_spec i axis) as [->|Hne].
    + destruct (wr_ok v axis 0) as (v' & E & Hv' & Hz'); [lia|]. rewrite E. bnd. eexists. split; [reflexivity|].
      split; [rewrite Hp; destruct (Z.leb_spec axis axis), (Z.leb_spec (axis + 1) axis); lia|]. split; [lia|].
      intros j Hj. rewrite Hz' by lia. destruct (Z.eqb_spec j axis) as [->|].
      { destruct (Z.leb_spec (axis + 1) axis); [lia|]. rewrite zn_ins by lia. reflexivity. }
      rewrite Hz by assumption. destruct (Z.leb_spec axis j), (Z.leb_spec (axis + 1) j); try reflexivity; lia.
    + assert (Hpb : 0 <= p < zlen l /\ zn l p = zn (ins axis 0 l) i).
      { rewrite Hp. destruct (Z.leb_spec i axis).
        - split; [lia|]. rewrite zn_ins_lt by lia. reflexivity.
        - split; [lia|]. rewrite zn_ins_gt by lia. reflexivity. }
      destruct Hpb as [Hpb Hpz]. rewrite rd_ok' by assumption.
      destruct (wr_ok v i (zn l p)) as (v' & E & Hv' & Hz'); [lia|]. rewrite E. bnd. eexists. split; [reflexivity|].
      split; [rewrite Hp; destruct (Z.leb_spec i axis), (Z.leb_spec (i + 1) axis); lia|]. split; [lia|].
      intros j Hj. rewrite Hz' by lia. destruct (Z.eqb_spec j i) as [->|].
      { destruct (Z.leb_spec (i + 1) i); [lia|]. assumption. }
      rewrite Hz by assumption. destruct (Z.leb_spec i j), (Z.leb_spec (i + 1) j); try reflexivity; lia.
  - rewrite E. bnd. f_equal. destruct H as (_ & Hv & Hz). apply list_ext.
    + rewrite zlen_ins by lia. lia.
    + intros i Hi. rewrite Hz by lia. destruct (Z.leb_spec n i); [lia|reflexivity].
Qed.

Lemma tile_mnk_ok sh axis : 0 <= axis < zlen sh ->
  tile_mnk (tt_of sh) axis = Ok (zn (dim3 axis sh) 0, zn (dim3 axis sh) 2, zn (dim3 axis sh) 1).
Proof.
  intros Ha. unfold tile_mnk. cbn [tt_of tt_stride tt_ms tt_shape].
  rewrite rd_ok' by (rewrite zlen_ztab; lia). rewrite zn_ztab by lia.
  rewrite (rd_ok' (ztab _ _)) by (rewrite zlen_ztab; lia). rewrite zn_ztab by lia.
  rewrite rd_ok' by lia. unfold dim3. cbn [snd]. do 3 f_equal.
  unfold zn. cbn [nth]. change (Z.to_nat 2) with 2%nat. cbn [nth]. f_equal. f_equal. lia.
Qed.

Lemma app_inj_len {A} (a1 b1 a2 b2 : list A) : List.length a1 = List.length b1 -> a1 ++ a2 = b1 ++ b2 -> a1 = b1 /\ a2 = b2.
Proof.
  revert b1; induction a1; destruct b1; simpl; intros E H; try discriminate; [auto|].
  inversion H; subst. destruct (IHa1 b1) as [-> ->]; auto.
Qed.

(** *** Correspondence of tiles and elements *)
Section G.
Variables (big small : tensor) (axis : Z).
Hypothesis (Hb : wft big) (Hs : wft small) (Hm : slice_match big small axis).
Let gb := gridZ (t_shape big) (t_base big).
Let gs := gridZ (t_shape small) (t_base small).
Let Ha : 0 <= axis < zlen (t_shape big) := proj1 Hm.
(** number of tiles along the axis; tile of [big] above tile i of [small] at position j *)
Definition sg_n : Z := zn (gridZ (t_shape big) (t_base big)) axis.
Definition sg_out (p : Z * Z) : Z :=
  off (gridZ (t_shape big) (t_base big)) (ins axis (snd p) (unoff (gridZ (t_shape small) (t_base small)) (fst p))).

Lemma gs_eq : gs = del axis gb.
Proof.
  unfold gs, gb. destruct (id Hm) as (_ & -> & ->). apply del_gridZ; [|assumption].
  symmetry; apply wf_len; assumption.
Qed.
Lemma zlen_gb : zlen gb = zlen (t_shape big).
Proof. pose proof (wf_len' _ Hb) as H. unfold gb, zlen. rewrite gridZ_length by assumption. reflexivity. Qed.
Lemma zlen_gs : zlen gs = zlen (t_shape big) - 1.
Proof. rewrite gs_eq, zlen_del, zlen_gb by (rewrite zlen_gb; assumption). reflexivity. Qed.
Lemma sg_n_pos : 0 < sg_n.
Proof. unfold sg_n. fold gb. apply pos_zn; [apply wf_pg; assumption|]. rewrite zlen_gb. assumption. Qed.

Lemma sg_inb i j : 0 <= i < ntiles small -> 0 <= j < sg_n -> inb gb (ins axis j (unoff gs i)).
Proof.
  intros Hi Hj. apply inb_ins; [rewrite zlen_gb; assumption|assumption|]. rewrite <- gs_eq.
  apply unoff_inb; [apply wf_pg; assumption|assumption].
Qed.
Lemma sg_bound i j : 0 <= i < ntiles small -> 0 <= j < sg_n -> 0 <= sg_out (i, j) < ntiles big.
Proof. intros Hi Hj. apply off_bound. apply sg_inb; assumption. Qed.

Lemma sg_tsh i j : 0 <= i < ntiles small -> 0 <= j < sg_n ->
  tsh big (sg_out (i, j)) = tshape (t_shape big) (t_base big) (ins axis j (unoff gs i)).
Proof. intros Hi Hj. unfold tsh, sg_out. cbn [fst snd]. fold gb gs. rewrite unoff_off by (apply sg_inb; assumption). reflexivity. Qed.

Lemma sg_del_tsh i j : 0 <= i < ntiles small -> 0 <= j < sg_n ->
  del axis (tsh big (sg_out (i, j))) = tsh small i.
Proof.
  intros Hi Hj. rewrite sg_tsh by assumption. unfold tsh. fold gs. destruct (id Hm) as (_ & E1 & E2). rewrite E1, E2.
  pose proof (wf_len _ Hb) as Hl. pose proof zlen_gs as Hg.
  assert (Hu : zlen (unoff gs i) = zlen (t_shape big) - 1) by (rewrite zlen_unoff; assumption).
  rewrite <- del_tshape; try (rewrite ?zlen_ins; lia). rewrite del_ins by lia. reflexivity.
Qed.
Lemma sg_axis_tsh i j : 0 <= i < ntiles small -> 0 <= j < sg_n ->
  zn (tsh big (sg_out (i, j))) axis = Z.min (zn (t_base big) axis) (zn (t_shape big) axis - j * zn (t_base big) axis).
Proof.
  intros Hi Hj. rewrite sg_tsh by assumption. pose proof (wf_len _ Hb) as Hl.
  assert (Hu : zlen (unoff gs i) = zlen (t_shape big) - 1) by (rewrite zlen_unoff; apply zlen_gs).
  rewrite zn_tshape; try (rewrite ?zlen_ins; lia). rewrite zn_ins by lia. reflexivity.
Qed.
Lemma zlen_tsh t i : wft t -> 0 <= i < ntiles t -> zlen (tsh t i) = zlen (t_shape t).
Proof.
  intros Ht Hi. unfold tsh. pose proof (wf_len' _ Ht) as Hl.
  assert (E : List.length (unoff (gridZ (t_shape t) (t_base t)) i) = List.length (t_shape t)).
  { rewrite unoff_length, gridZ_length by assumption. reflexivity. }
  unfold zlen. rewrite tshape_length; auto.
Qed.
(** sizes of the tile above: m * n elements in the slice tile, m * k * n in the big one *)
Lemma sg_sizes i j : 0 <= i < ntiles small -> 0 <= j < sg_n ->
  let d := dim3 axis (tsh big (sg_out (i, j))) in
  0 < zn d 0 /\ 0 < zn d 1 /\ 0 < zn d 2 /\ d = [zn d 0; zn d 1; zn d 2] /\
  tsz small i = zn d 0 * zn d 2 /\ tsz big (sg_out (i, j)) = zn d 0 * (zn d 1 * zn d 2) /\
  zn d 1 = Z.min (zn (t_base big) axis) (zn (t_shape big) axis - j * zn (t_base big) axis).
Proof.
  intros Hi Hj d. pose proof (sg_bound i j Hi Hj) as Ho. pose proof (zlen_tsh big _ Hb Ho) as Hz.
  assert (Ha' : 0 <= axis < zlen (tsh big (sg_out (i, j)))) by lia.
  pose proof (view3_pos axis _ Ha' (tsh_pos _ _ Hb Ho)) as P. fold d in P.
  assert (E : d = [zn d 0; zn d 1; zn d 2]) by reflexivity.
  rewrite E in P. inversion P as [|? ? P1 P2]; subst. inversion P2 as [|? ? P3 P4]; subst. inversion P4 as [|? ? P5 _]; subst.
  repeat split; auto.
  - unfold tsz. rewrite <- (sg_del_tsh i j) by assumption. apply view2_prod. assumption.
  - unfold tsz. rewrite <- (dim3_prod axis) by assumption. fold d. rewrite E. cbn [prodZ].
    change (zn [zn d 0; zn d 1; zn d 2] 0) with (zn d 0). change (zn [zn d 0; zn d 1; zn d 2] 1) with (zn d 1).
    change (zn [zn d 0; zn d 1; zn d 2] 2) with (zn d 2). ring.
  - unfold d, dim3. apply sg_axis_tsh; assumption.
Qed.
(** m and n do not depend on the position along the axis *)
Lemma sg_mn i j j' : 0 <= i < ntiles small -> 0 <= j < sg_n -> 0 <= j' < sg_n ->
  zn (dim3 axis (tsh big (sg_out (i, j)))) 0 = zn (dim3 axis (tsh big (sg_out (i, j')))) 0 /\
  zn (dim3 axis (tsh big (sg_out (i, j)))) 2 = zn (dim3 axis (tsh big (sg_out (i, j')))) 2.
Proof.
  intros Hi Hj Hj'. pose proof (sg_del_tsh i j Hi Hj) as E1. pose proof (sg_del_tsh i j' Hi Hj') as E2.
  rewrite <- E2 in E1. clear E2.
  pose proof (zlen_tsh big _ Hb (sg_bound i j Hi Hj)) as L1. pose proof (zlen_tsh big _ Hb (sg_bound i j' Hi Hj')) as L2.
  destruct (split_at (tsh big (sg_out (i, j))) axis) as (a1 & x & a2 & Ea & La); [lia|].
  destruct (split_at (tsh big (sg_out (i, j'))) axis) as (b1 & y & b2 & Eb & Lb); [lia|].
  rewrite Ea, Eb in *. rewrite !del_app in E1 by assumption. rewrite !dim3_app by assumption.
  assert (a1 = b1 /\ a2 = b2) as [-> ->]; [|split; reflexivity].
  apply app_inj_len; [|assumption]. unfold zlen in *. lia.
Qed.

Lemma sg_geo idx : inb (t_shape big) idx ->
  let i := etile small (del axis idx) in
  let j := zn idx axis / zn (t_base big) axis in
  let l := zn idx axis mod zn (t_base big) axis in
  inb (t_shape small) (del axis idx) /\
  0 <= i < ntiles small /\ 0 <= j < sg_n /\ etile big idx = sg_out (i, j) /\
  let d := dim3 axis (tsh big (sg_out (i, j))) in
  exists o0 o2, 0 <= o0 < zn d 0 /\ 0 <= o2 < zn d 2 /\ 0 <= l < zn d 1 /\
    eoff big idx = o0 + zn d 0 * (l + zn d 1 * o2) /\ eoff small (del axis idx) = o0 + zn d 0 * o2.
Proof.
  intros Hi i j l. pose proof (wf_len _ Hb) as Hl. pose proof (inb_zlen _ _ Hi) as Hzi.
  assert (Hbpos : 0 < zn (t_base big) axis) by (apply pos_zn; [apply wf_pb; assumption|lia]).
  pose proof (inb_zn _ _ axis Hi Ha) as Hia.
  assert (Hsm : inb (t_shape small) (del axis idx)).
  { destruct (id Hm) as (_ & -> & _). apply inb_del; assumption. }
  pose proof (etile_bound _ _ Hs Hsm) as Hib. fold i in Hib.
  assert (Hj : 0 <= j < sg_n).
  { unfold sg_n. rewrite zn_gridZ by lia. unfold j. apply tile1; assumption. }
  assert (Ht : tile_of (t_base big) idx = ins axis j (unoff gs i)).
  { unfold i, etile. fold gs. rewrite unoff_off by (apply tile_of_inb; auto using wf_len', wf_pb).
    destruct (id Hm) as (_ & E1 & E2). rewrite E2. rewrite del_tile_of by lia.
    replace j with (zn (tile_of (t_base big) idx) axis). 2:{ unfold tile_of. rewrite zn_map2 by lia. reflexivity. }
    symmetry. apply ins_del. unfold tile_of, zlen. rewrite map2_length by (unfold zlen in *; lia). unfold zlen in *. lia. }
  assert (Het : etile big idx = sg_out (i, j)).
  { unfold etile, sg_out. cbn [fst snd]. fold gb gs. rewrite Ht. reflexivity. }
  split; [assumption|]. split; [assumption|]. split; [assumption|]. split; [assumption|]. intros d.
  set (sh := tsh big (sg_out (i, j))) in *. set (e := in_tile (t_base big) idx).
  assert (He : inb sh e).
  { unfold sh. rewrite <- Het, tsh_etile by assumption. apply in_tile_inb; auto using wf_len', wf_pb. }
  assert (Hsh : zlen sh = zlen (t_shape big)) by (apply zlen_tsh; [assumption|apply sg_bound; assumption]).
  assert (Ha' : 0 <= axis < zlen sh) by lia.
  destruct (view3 axis sh e Ha' He) as [V1 V2]. pose proof (view2 axis sh e Ha' He) as V3.
  fold d in V1, V2, V3. set (c := coo3 axis sh e) in *.
  assert (Ec : c = [zn c 0; l; zn c 2]).
  { unfold c, coo3. change (zn [?a; ?b; ?c] 0) with a. unfold zn at 2. cbn [nth Z.to_nat]. f_equal. f_equal.
    unfold e, in_tile. rewrite zn_map2 by lia. reflexivity. }
  assert (Ed : d = [zn d 0; zn d 1; zn d 2]) by reflexivity.
  rewrite Ec, Ed in V1. inversion V1 as [|? ? ? ? P1 P2]; subst. inversion P2 as [|? ? ? ? P3 P4]; subst.
  inversion P4 as [|? ? ? ? P5 _]; subst.
  exists (zn c 0), (zn c 2). split; [assumption|]. split; [assumption|]. split; [assumption|].
  rewrite Ec, Ed in V2. cbn [off] in V2. split.
  - assert (Eo : eoff big idx = off sh e). { unfold eoff. fold e. rewrite <- tsh_etile by assumption. rewrite Het. reflexivity. }
    rewrite Eo, <- V2. ring.
  - rewrite <- V3. unfold eoff. rewrite <- tsh_etile by assumption. fold i.
    rewrite <- (sg_del_tsh i j) by assumption. fold sh. f_equal.
    destruct (id Hm) as (_ & _ & E2). rewrite E2. apply del_in_tile; lia.
Qed.

(** The only pair of tiles holding an element. *)
Lemma sg_out_inj i j i' j' : 0 <= i < ntiles small -> 0 <= j < sg_n -> 0 <= i' < ntiles small -> 0 <= j' < sg_n ->
  sg_out (i, j) = sg_out (i', j') -> i = i' /\ j = j'.
Proof.
  intros Hi Hj Hi' Hj' E. unfold sg_out in E. cbn [fst snd] in E. fold gb gs in E.
  apply off_inj in E; [|apply sg_inb; assumption|apply sg_inb; assumption].
  pose proof zlen_gs as Hg. pose proof zlen_gb as Hgb.
  assert (L : forall x, zlen (unoff gs x) = zlen (t_shape big) - 1) by (intros; rewrite zlen_unoff; assumption).
  assert (Ej : j = j'). { rewrite <- (zn_ins axis j (unoff gs i)), E by (rewrite L; lia). apply zn_ins. rewrite L. lia. }
  assert (Ei : unoff gs i = unoff gs i').
  { rewrite <- (del_ins axis j (unoff gs i)), E by (rewrite L; lia). apply del_ins. rewrite L; lia. }
  split; [|assumption]. assert (Pg : pos gs) by (apply wf_pg; assumption).
  transitivity (off gs (unoff gs i)); [symmetry; exact (off_unoff gs i Pg Hi)|]. rewrite Ei. exact (off_unoff gs i' Pg Hi').
Qed.

Definition sg_xs : list (Z * Z) := list_prod (zrange (ntiles small)) (zrange sg_n).
Lemma sg_xs_In p : In p sg_xs <-> 0 <= fst p < ntiles small /\ 0 <= snd p < sg_n.
Proof. destruct p. unfold sg_xs. rewrite in_prod_iff, !zrange_In. reflexivity. Qed.
Lemma sg_filter idx : inb (t_shape big) idx ->
  filter (fun p => sg_out p =? etile big idx) sg_xs =
    [(etile small (del axis idx), zn idx axis / zn (t_base big) axis)].
Proof.
  intros Hi. destruct (sg_geo idx Hi) as (_ & Hi1 & Hj & Et & _). cbv zeta in *. apply filter_single.
  - apply NoDup_prod; apply NoDup_zrange.
  - apply sg_xs_In. cbn [fst snd]. auto.
  - rewrite Et. apply Z.eqb_refl.
  - intros [i' j'] Hin E. apply sg_xs_In in Hin. cbn [fst snd] in Hin. apply Z.eqb_eq in E. rewrite Et in E.
    apply sg_out_inj in E; try tauto. destruct E as [-> ->]. reflexivity.
Qed.

(** The element of [big] above an element of [small]. *)
Lemma sg_up idx j l : inb (t_shape small) idx -> 0 <= j < sg_n ->
  let i := etile small idx in
  let d := dim3 axis (tsh big (sg_out (i, j))) in
  0 <= l < zn d 1 ->
  let idx' := ins axis (j * zn (t_base big) axis + l) idx in
  inb (t_shape big) idx' /\ etile big idx' = sg_out (i, j) /\
  eoff big idx' = cz [zn d 0; zn d 2] 0 (eoff small idx) +
      zn d 0 * (l + zn d 1 * cz [zn d 0; zn d 2] 1 (eoff small idx)).
Proof.
  intros Hi Hj i d Hl idx'. pose proof (etile_bound _ _ Hs Hi) as Hib. fold i in Hib.
  destruct (sg_sizes i j Hib Hj) as (D0 & D1 & D2 & Ed & T1 & T2 & E1). fold d in D0, D1, D2, Ed, T1, T2, E1.
  pose proof (inb_zlen _ _ Hi) as Hz. pose proof (proj1 (proj2 Hm)) as Es.
  assert (Hzs : zlen (t_shape small) = zlen (t_shape big) - 1) by (rewrite Es; apply zlen_del; assumption).
  assert (Hbpos : 0 < zn (t_base big) axis) by (apply pos_zn; [apply wf_pb; assumption|rewrite (wf_len _ Hb); lia]).
  assert (Ht1 : 0 <= j * zn (t_base big) axis + l < zn (t_shape big) axis /\
    (j * zn (t_base big) axis + l) / zn (t_base big) axis = j /\ (j * zn (t_base big) axis + l) mod zn (t_base big) axis = l).
  { apply tile1_inv; [assumption| |rewrite <- E1; assumption]. unfold sg_n in Hj. rewrite zn_gridZ in Hj; [assumption| |lia].
    symmetry; apply wf_len; assumption. }
  destruct Ht1 as (Ht1 & Ht2 & Ht3).
  assert (Hi' : inb (t_shape big) idx').
  { apply inb_ins; [assumption|assumption|]. rewrite <- Es. assumption. }
  split; [assumption|]. destruct (sg_geo idx' Hi') as (G1 & G2 & G3 & G4 & o0 & o2 & G5 & G6 & G7 & G8 & G9). cbv zeta in *.
  assert (Ed' : del axis idx' = idx) by (apply del_ins; lia).
  assert (Ez : zn idx' axis = j * zn (t_base big) axis + l) by (apply zn_ins; lia).
  rewrite Ed', Ez, Ht2, ?Ht3 in *. fold i in G4, G5, G6, G7, G8, G9. fold d in G5, G6, G7, G8, G9. split; [assumption|].
  rewrite G9, G8. destruct (cz2 (zn d 0) (zn d 2) o0 o2 G5 G6) as (C1 & C2 & _). rewrite C1, C2. reflexivity.
Qed.
End G.
