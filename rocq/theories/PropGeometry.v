(** * Properties C01-C05: geometry of tiles and tensors

    [inb], [off], [unoff], [gridZ], [tile_of], [in_tile], [tshape], [glob] are the
    specification vocabulary of Spec.v; everything else named here is an API function
    of the model (Traits.v, Distributions.v). *)
From Verif Require Import Base Spec Geometry Traits TraitsProofs Distributions.

(** ** C01 *)
Theorem C01_index_bijection : forall shape t,
  TileTraits_new shape = Ok t ->
  (forall idx, inb shape idx ->
     exists o, index_to_linear t idx = Ok o /\ 0 <= o < tt_nelems t /\
               o = off shape idx /\ linear_to_index t o = Ok idx) /\
  (forall o, 0 <= o < tt_nelems t ->
     exists idx, linear_to_index t o = Ok idx /\ inb shape idx /\ index_to_linear t idx = Ok o) /\
  (forall idx, ~ inb shape idx -> exists m, index_to_linear t idx = Throw m) /\
  (forall o, ~ (0 <= o < tt_nelems t) -> exists m, linear_to_index t o = Throw m) /\
  (forall idx, (exists m, contains_index t idx = Throw m) <-> zlen idx <> zlen shape) /\
  (forall idx, contains_index t idx = Ok true <-> inb shape idx).
Proof.
  intros shape t Ht. apply TileTraits_new_inv in Ht as [Hp ->]. cbn [tt_nelems tt_of].
  repeat split.
  - intros idx Hi. exists (off shape idx). rewrite index_to_linear_ok by assumption.
    pose proof (off_bound _ _ Hi). repeat split; auto; try lia.
    rewrite linear_to_index_ok by assumption. rewrite unoff_off by assumption. reflexivity.
  - intros o Ho. exists (unoff shape o). rewrite linear_to_index_ok by assumption.
    pose proof (unoff_inb _ _ Hp Ho). rewrite index_to_linear_ok by assumption.
    rewrite off_unoff by assumption. auto.
  - intros idx Hi. apply index_to_linear_throw; assumption.
  - intros o Ho. eexists. apply linear_to_index_throw; assumption.
  - intros (m & Hm) Hl. destruct (contains_index_ok shape idx Hl) as (b & E & _). congruence.
  - intros Hl. eexists. apply contains_index_throw; assumption.
  - intros E. destruct (Z.eq_dec (zlen idx) (zlen shape)) as [Hl|Hl].
    + destruct (contains_index_ok shape idx Hl) as (b & E' & Hb). apply Hb. congruence.
    + rewrite contains_index_throw in E by assumption. discriminate.
  - intros Hi. destruct (contains_index_ok shape idx) as (b & E' & Hb).
    + symmetry. apply inb_zlen; assumption.
    + rewrite E'. f_equal. apply Hb; assumption.
Qed.

Example C01_example : exists t, TileTraits_new [3; 2; 4] = Ok t /\
  index_to_linear t [2; 1; 3] = Ok 23 /\ linear_to_index t 16 = Ok [1; 1; 2].
Proof. eexists; repeat split; reflexivity. Qed.

(** ** C02 *)
Theorem C02_tile_geometry : forall shape,
  (~ pos shape -> exists m, TileTraits_new shape = Throw m) /\
  (pos shape -> exists t, TileTraits_new shape = Ok t /\
     tt_ndim t = zlen shape /\ tt_shape t = shape /\
     tt_nelems t = prodZ shape /\
     zlen (tt_stride t) = zlen shape /\
     (forall i, 0 <= i < zlen shape -> zn (tt_stride t) i = prodZ (firstn (Z.to_nat i) shape)) /\
     zlen (tt_ms t) = zlen shape + 1 /\
     (forall i, 0 <= i <= zlen shape ->
        zn (tt_ms t) i = (prodZ (firstn (Z.to_nat i) shape), prodZ (skipn (Z.to_nat i) shape)) /\
        fst (zn (tt_ms t) i) * snd (zn (tt_ms t) i) = tt_nelems t)).
Proof.
  intros shape. split.
  - intros H. eexists. apply TileTraits_new_throw; assumption.
  - intros Hp. exists (tt_of shape). rewrite TileTraits_new_ok by assumption.
    pose proof (zlen_nonneg shape). unfold tt_of; cbn [tt_ndim tt_shape tt_nelems tt_stride tt_ms].
    split; [reflexivity|]. split; [reflexivity|]. split; [reflexivity|]. split; [reflexivity|].
    split; [apply zlen_ztab; lia|]. split; [intros i Hi; rewrite zn_ztab by lia; reflexivity|].
    split; [apply zlen_ztab; lia|]. intros i Hi. rewrite zn_ztab by lia. cbn [fst snd].
    split; [reflexivity|]. rewrite <- prodZ_app, firstn_skipn. reflexivity.
Qed.

Example C02_example : exists t, TileTraits_new [3; 2; 4] = Ok t /\
  tt_stride t = [1; 3; 6] /\ tt_ms t = [(1, 24); (3, 8); (6, 4); (24, 1)].
Proof. eexists; repeat split; reflexivity. Qed.
Example C02_example_throw : TileTraits_new [3; 0] = Throw "shape[i] <= 0".
Proof. reflexivity. Qed.

(** ** C03 *)
Definition sumZ (l : list Z) : Z := fold_right Z.add 0 l.

Lemma sumZ_app l1 l2 : sumZ (l1 ++ l2) = sumZ l1 + sumZ l2.
Proof. induction l1; simpl; [lia|]. rewrite IHl1. lia. Qed.

Lemma sumZ_map_mul {A} (f : A -> Z) c l : sumZ (map (fun x => c * f x) l) = c * sumZ (map f l).
Proof. induction l; simpl; [lia|]. rewrite IHl. lia. Qed.

Lemma sum_tiles1 s b n : 0 < b -> 0 < s -> 0 <= n <= (s + b - 1) / b ->
  sumZ (ztab n (fun t => Z.min b (s - t * b))) = Z.min s (n * b).
Proof.
  intros Hb Hs [Hn0 Hn]. revert n Hn0 Hn.
  refine (natlike_ind _ _ _).
  - intros _. unfold ztab; simpl. lia.
  - intros n Hn IH Hle. unfold Z.succ. rewrite ztab_succ by lia. rewrite sumZ_app, IH by lia.
    unfold sumZ; cbn [fold_right]. pose proof (Z.mul_div_le (s + b - 1) b Hb).
    assert (n * b < s) by nia. replace ((n + 1) * b) with (n * b + b) by ring. lia.
Qed.

Lemma sum_flat {A} (f : A -> list Z) l : sumZ (flat_map f l) = sumZ (map (fun x => sumZ (f x)) l).
Proof. induction l; simpl; [reflexivity|]. rewrite sumZ_app, IHl. reflexivity. Qed.

Lemma zrange_mul a b : 0 < a -> 0 <= b ->
  zrange (a * b) = flat_map (fun j => map (fun i => i + a * j) (zrange a)) (zrange b).
Proof.
  intros Ha. revert b. refine (natlike_ind _ _ _).
  - rewrite Z.mul_0_r. reflexivity.
  - intros b Hb IH. unfold Z.succ. rewrite zrange_succ by lia. rewrite flat_map_app, <- IH.
    cbn [flat_map]. rewrite app_nil_r. clear IH.
    replace (a * (b + 1)) with (a * b + a) by ring.
    unfold zrange. rewrite map_map.
    replace (Z.to_nat (a * b + a)) with (Z.to_nat (a * b) + Z.to_nat a)%nat by nia.
    rewrite seq_app, map_app. f_equal. simpl.
    replace (Z.to_nat (a * b)) with (0 + Z.to_nat (a * b))%nat at 1 by lia.
    assert (G : forall n k, map Z.of_nat (seq (k + Z.to_nat (a * b)) n)
              = map (fun x => Z.of_nat x + a * b) (seq k n)).
    { induction n; intros k; simpl; [reflexivity|]. f_equal; [nia|].
      apply (IHn (S k)). }
    apply G.
Qed.

Lemma tiles_nelems_sum shape base :
  zlen base = zlen shape -> pos shape -> pos base ->
  sumZ (ztab (prodZ (gridZ shape base)) (fun i => prodZ (tshape shape base (unoff (gridZ shape base) i))))
  = prodZ shape.
Proof.
  intros Hl Hs. revert base Hl. induction Hs as [|s shape Hs1 Hs IH]; intros base Hl Hb.
  - destruct base; [reflexivity|]. unfold zlen in Hl; simpl in Hl; lia.
  - destruct base as [|b base]; [unfold zlen in Hl; simpl in Hl; lia|].
    inversion Hb as [|? ? Hb1 Hb2]; subst.
    assert (Hl' : zlen base = zlen shape) by (rewrite !zlen_cons in Hl; lia).
    unfold gridZ; cbn [map2 prodZ]; fold (gridZ shape base).
    pose proof (grid1_pos s b Hb1 Hs1) as Hg.
    set (g := (s + b - 1) / b) in *.
    assert (Hgr : pos (gridZ shape base)).
    { apply gridZ_pos; auto. unfold zlen in Hl'. lia. }
    pose proof (prodZ_pos _ Hgr). unfold ztab. rewrite zrange_mul by lia.
    rewrite flat_map_concat_map, concat_map, map_map, <- flat_map_concat_map, sum_flat.
    rewrite <- (IH base Hl' Hb2). unfold ztab.
    rewrite <- (sumZ_map_mul (fun i => prodZ (tshape shape base (unoff (gridZ shape base) i)))).
    f_equal. apply map_ext_in. intros j Hj. apply zrange_In in Hj.
    rewrite map_map.
    erewrite map_ext_in with (g := fun t => prodZ (tshape shape base (unoff (gridZ shape base) j)) * Z.min b (s - t * b)).
    + rewrite sumZ_map_mul. pose proof (sum_tiles1 s b g Hb1 Hs1 ltac:(lia)) as E. unfold ztab in E. rewrite E.
      assert (g * b >= s). { unfold g. pose proof (Z.div_mod (s + b - 1) b ltac:(lia)).
        pose proof (Z.mod_pos_bound (s + b - 1) b Hb1). nia. }
      rewrite Z.min_l by lia. ring.
    + intros t Ht. apply zrange_In in Ht. cbn [unoff tshape prodZ].
      replace (t + g * j) with (j * g + t) by ring.
      rewrite Z.div_add_l by lia. rewrite (Z.div_small t g) by lia.
      rewrite Z.add_comm, Z.mod_add by lia. rewrite Z.mod_small by lia.
      rewrite Z.add_0_r. ring.
Qed.

Theorem C03_tiles_partition : forall shape base tt,
  TensorTraits_new shape base = Ok tt ->
  (* every element is in exactly one tile, inside that tile's shape *)
  (forall idx, inb shape idx ->
     exists tidx e ts, get_tile_shape tt tidx = Ok ts /\ inb ts e /\ glob base tidx e = idx /\
       forall tidx' e' ts', get_tile_shape tt tidx' = Ok ts' -> inb ts' e' -> glob base tidx' e' = idx ->
         tidx' = tidx /\ e' = e) /\
  (* every coordinate of every tile is an element *)
  (forall tidx e ts, get_tile_shape tt tidx = Ok ts -> inb ts e -> inb shape (glob base tidx e)) /\
  (* tile extents: positive, at most the base tile, equal to it except for the last tile *)
  (forall tidx ts i, get_tile_shape tt tidx = Ok ts -> 0 <= i < zlen shape ->
     0 < zn ts i <= zn base i /\
     (zn tidx i < zn (tt_shape (tn_grid tt)) i - 1 -> zn ts i = zn base i)) /\
  (* sizes add up *)
  sumZ (ztab (tt_nelems (tn_grid tt)) (fun i =>
          match linear_to_index (tn_grid tt) i with
          | Ok tidx => match get_tile_shape tt tidx with Ok ts => prodZ ts | _ => 0 end
          | _ => 0 end)) = tn_nelems tt.
Proof.
  intros shape base tt Ht. apply TensorTraits_new_inv in Ht as (Hl & Hs & Hb & ->).
  assert (Hl' : List.length shape = List.length base) by (unfold zlen in Hl; lia).
  assert (Hg : pos (gridZ shape base)) by (apply gridZ_pos; auto).
  assert (Hinv : forall tidx ts, get_tile_shape (tn_of shape base) tidx = Ok ts ->
            inb (gridZ shape base) tidx /\ ts = tshape shape base tidx).
  { intros tidx ts E. destruct (inb_dec (gridZ shape base) tidx) as [Hi|Hi].
    - rewrite get_tile_shape_ok in E by assumption. split; [assumption|congruence].
    - destruct (get_tile_shape_throw shape base tidx) as (m & E'); auto. congruence. }
  repeat split.
  - intros idx Hi. exists (tile_of base idx), (in_tile base idx), (tshape shape base (tile_of base idx)).
    split; [apply get_tile_shape_ok; auto; apply tile_of_inb; auto|].
    split; [apply in_tile_inb; auto|]. split; [apply (glob_of shape); auto|].
    intros tidx' e' ts' E He Hgl. apply Hinv in E as [Hti ->].
    destruct (glob_inv shape base tidx' e') as (_ & E1 & E2); auto. rewrite Hgl in E1, E2. auto.
  - intros tidx e ts E He. apply Hinv in E as [Hti ->]. apply glob_inv; auto.
  - apply Hinv in H as [Hti ->]. pose proof (tshape_pos shape base tidx Hl' Hs Hb Hti) as Hp.
    apply inb_zlen in Hti as Hzl. rewrite zlen_gridZ in Hzl by lia.
    apply pos_zn with (i := i) in Hp; [assumption|]. rewrite zlen_tshape; lia.
  - apply Hinv in H as [Hti ->]. apply inb_zlen in Hti as Hzl. rewrite zlen_gridZ in Hzl by lia.
    rewrite zn_tshape by lia. lia.
  - apply Hinv in H as [Hti ->]. apply inb_zlen in Hti as Hzl. rewrite zlen_gridZ in Hzl by lia.
    cbn [tt_shape tn_grid tn_of tt_of]. unfold gridZ. rewrite zn_map2 by lia.
    rewrite zn_tshape by lia. intros Hlt. apply Z.min_l.
    assert (Hbi : 0 < zn base i) by (apply pos_zn; auto; lia).
    pose proof (Z.mul_div_le (zn shape i + zn base i - 1) (zn base i) Hbi). clear - H Hlt Hbi. nia.
  - cbn [tn_grid tn_of tt_nelems tt_of tn_nelems tn_tile].
    transitivity (sumZ (ztab (prodZ (gridZ shape base)) (fun i => prodZ (tshape shape base (unoff (gridZ shape base) i))))).
    + f_equal. apply ztab_ext. intros i Hi. change (mkTT _ _ _ _ _) with (tt_of (gridZ shape base)).
      rewrite linear_to_index_ok by auto. rewrite get_tile_shape_ok; auto. apply unoff_inb; auto.
    + apply tiles_nelems_sum; assumption.
Qed.

Example C03_example : exists tt, TensorTraits_new [7; 5] [3; 5] = Ok tt /\
  tt_shape (tn_grid tt) = [3; 1] /\ get_tile_shape tt [2; 0] = Ok [1; 5] /\ get_tile_shape tt [1; 0] = Ok [3; 5].
Proof. eexists; repeat split; reflexivity. Qed.

(** ** C04 *)
Theorem C04_tensor_construction : forall shape base,
  (~ (zlen base = zlen shape /\ pos shape /\ pos base) -> exists m, TensorTraits_new shape base = Throw m) /\
  (zlen base = zlen shape -> pos shape -> pos base ->
   exists tt, TensorTraits_new shape base = Ok tt /\
     tn_shape tt = shape /\ tn_base tt = base /\ tt_shape (tn_grid tt) = gridZ shape base /\
     tt_nelems (tn_grid tt) = prodZ (gridZ shape base) /\
     (forall tidx, inb (gridZ shape base) tidx -> get_tile_shape tt tidx = Ok (tshape shape base tidx)) /\
     (forall tidx, ~ inb (gridZ shape base) tidx -> exists m, get_tile_shape tt tidx = Throw m) /\
     (forall distr next, zlen distr <> prodZ (gridZ shape base) -> exists m, Tensor_new tt distr next = Throw m) /\
     (forall distr next, zlen distr = prodZ (gridZ shape base) ->
        exists t sizes, Tensor_new tt distr next = Ok (t, sizes) /\ tr t = tt /\ tile_distr t = distr /\
          map fst sizes = tile_handles t /\ NoDup (tile_handles t) /\
          Forall (fun h => next <= h < next + prodZ (gridZ shape base)) (tile_handles t) /\
          (forall tidx, inb (gridZ shape base) tidx ->
             exists ttt h, get_tile t (off (gridZ shape base) tidx) = Ok (ttt, h) /\
               get_tile_idx t tidx = Ok (ttt, h) /\
               TileTraits_new (tshape shape base tidx) = Ok ttt /\
               In (h, prodZ (tshape shape base tidx)) sizes) /\
          (forall i, ~ (0 <= i < prodZ (gridZ shape base)) -> exists m, get_tile t i = Throw m) /\
          (forall tidx, ~ inb (gridZ shape base) tidx -> exists m, get_tile_idx t tidx = Throw m))).
Proof.
  intros shape base. split; [apply TensorTraits_new_throw|].
  intros Hl Hs Hb. exists (tn_of shape base).
  assert (Hl' : List.length shape = List.length base) by (unfold zlen in Hl; lia).
  assert (Hg : pos (gridZ shape base)) by (apply gridZ_pos; auto).
  pose proof (prodZ_pos _ Hg) as HN.
  split; [apply TensorTraits_new_ok; auto|]. do 4 (split; [reflexivity|]).
  split; [intros; apply get_tile_shape_ok; auto|]. split; [intros; apply get_tile_shape_throw; auto|].
  split; [intros; eexists; apply Tensor_new_throw; auto|].
  intros distr next Hd. do 2 eexists. split; [apply Tensor_new_ok; auto|]. cbv zeta.
  cbn [tr tile_distr tile_handles].
  split; [reflexivity|]. split; [reflexivity|].
  split; [unfold ztab; rewrite map_map; reflexivity|].
  split; [apply NoDup_ztab_inj; intros; lia|].
  split. { apply Forall_forall. intros h Hh. unfold ztab in Hh. apply in_map_iff in Hh as (i & <- & Hi).
    apply zrange_In in Hi. lia. }
  split; [|split].
  - intros tidx Ht. pose proof (off_bound _ _ Ht) as Ho.
    exists (tt_of (tshape shape base tidx)), (next + off (gridZ shape base) tidx).
    unfold get_tile, get_tile_idx, throw_if. cbn [tr tile_traits tile_handles tn_grid tn_of].
    cbn [tt_nelems tt_of].
    destruct (Z.ltb_spec (off (gridZ shape base) tidx) 0); [lia|].
    destruct (Z.geb_spec (off (gridZ shape base) tidx) (prodZ (gridZ shape base))); [lia|]. cbn [orb].
    change (mkTT (zlen (gridZ shape base)) _ _ _ _) with (tt_of (gridZ shape base)).
    rewrite index_to_linear_ok by assumption. bnd.
    rewrite !rd_ok by (rewrite zlen_ztab; lia). bnd. bnd. rewrite !zn_ztab by lia.
    rewrite unoff_off by assumption.
    split; [reflexivity|]. split; [reflexivity|].
    split; [apply TileTraits_new_ok, tshape_pos; auto|].
    unfold ztab. apply in_map_iff. exists (off (gridZ shape base) tidx). rewrite unoff_off by assumption.
    split; [reflexivity|]. apply zrange_In. lia.
  - intros i Hi. unfold get_tile, throw_if. cbn [tr tn_grid tn_of tt_nelems tt_of].
    destruct (Z.ltb_spec i 0); cbn [orb]; [eexists; reflexivity|].
    destruct (Z.geb_spec i (prodZ (gridZ shape base))); [eexists; reflexivity|lia].
  - intros tidx Ht. unfold get_tile_idx. cbn [tr tn_grid tn_of].
    destruct (index_to_linear_throw _ _ Hg Ht) as (m & E). rewrite E. eexists; reflexivity.
Qed.

Example C04_example : exists tt t sizes, TensorTraits_new [7; 5] [3; 3] = Ok tt /\
  Tensor_new tt [0; 0; 0; 0; 0; 0] 10 = Ok (t, sizes) /\ tile_handles t = [10; 11; 12; 13; 14; 15] /\
  sizes = [(10, 9); (11, 9); (12, 3); (13, 6); (14, 6); (15, 2)].
Proof. do 3 eexists; repeat split; reflexivity. Qed.

(** ** C05
    Proved for grids with at least one dimension and positive mpi grids; the scalar grid
    and a zero mpi extent are refuted below (undefined behaviour in the code). *)
Theorem C05_block_cyclic_partial : forall grid mpi start max,
  (~ (zlen grid = zlen mpi /\ 0 <= start < max /\ pos grid) ->
     exists m, block_cyclic grid mpi start max = Throw m) /\
  (zlen grid = zlen mpi -> 0 < zlen grid -> 0 <= start < max -> pos grid -> pos mpi ->
     exists ranks, block_cyclic grid mpi start max = Ok ranks /\
       zlen ranks = prodZ grid /\
       (forall tidx, inb grid tidx ->
          zn ranks (off grid tidx) = (start + off mpi (in_tile mpi tidx)) mod max /\
          0 <= zn ranks (off grid tidx) < max) /\
       (forall tidx tidx', inb grid tidx -> inb grid tidx' -> in_tile mpi tidx = in_tile mpi tidx' ->
          zn ranks (off grid tidx) = zn ranks (off grid tidx'))).
Proof.
  intros grid mpi start max. split; [apply block_cyclic_throw|].
  intros Hl Hnd Hst Hg Hm. eexists. split; [apply block_cyclic_ok; auto|].
  pose proof (prodZ_pos _ Hg).
  assert (HF : forall tidx, inb grid tidx ->
    zn (ztab (prodZ grid) (fun i => (off mpi (in_tile mpi (unoff grid i)) + start) mod max)) (off grid tidx)
    = (start + off mpi (in_tile mpi tidx)) mod max).
  { intros tidx Ht. pose proof (off_bound _ _ Ht). rewrite zn_ztab by lia. rewrite unoff_off by assumption.
    f_equal. lia. }
  split; [apply zlen_ztab; lia|]. split.
  - intros tidx Ht. rewrite HF by assumption. split; [reflexivity|]. apply Z.mod_pos_bound; lia.
  - intros tidx tidx' Ht Ht' E. rewrite !HF by assumption. rewrite E. reflexivity.
Qed.

Example C05_example : block_cyclic [3; 4] [2; 2] 1 3 = Ok [1; 2; 1; 0; 1; 0; 1; 2; 1; 0; 1; 0].
Proof. reflexivity. Qed.

Theorem C05_scalar_grid_refuted : forall start max, 0 <= start < max ->
  block_cyclic [] [] start max = UB.
Proof. exact block_cyclic_scalar_ub. Qed.

Theorem C05_zero_mpi_grid_refuted : exists grid mpi start max,
  zlen grid = zlen mpi /\ 0 <= start < max /\ pos grid /\ block_cyclic grid mpi start max = UB.
Proof.
  exists [2], [0], 0, 1. repeat split; try reflexivity; try lia. repeat constructor.
Qed.

Print Assumptions C01_index_bijection.
Print Assumptions C03_tiles_partition.
Print Assumptions C04_tensor_construction.
Print Assumptions C05_block_cyclic_partial.
