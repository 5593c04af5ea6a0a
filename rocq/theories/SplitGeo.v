(** * Tile geometry of shapes split into leading and trailing dimensions

    transpose and gemm look at a tensor as a matrix (or a batch of matrices) by grouping its
    leading and trailing dimensions; here the position of an element is split accordingly. *)
From Verif Require Import Base Spec Geometry Traits TraitsProofs Runtime Ops TensorSem Axis.

(** As ntiles, tsh, tsz, etile, eoff, eidx of TensorSem, for a bare shape and tile shape. *)
Definition rn (sh ba : list Z) : Z := prodZ (gridZ sh ba).
Definition rsh (sh ba : list Z) (i : Z) : list Z := tshape sh ba (unoff (gridZ sh ba) i).
Definition rsz (sh ba : list Z) (i : Z) : Z := prodZ (rsh sh ba i).
Definition rtl (sh ba idx : list Z) : Z := off (gridZ sh ba) (tile_of ba idx).
Definition rof (sh ba idx : list Z) : Z := off (tshape sh ba (tile_of ba idx)) (in_tile ba idx).
Definition ridx (sh ba : list Z) (i o : Z) : list Z :=
  glob ba (unoff (gridZ sh ba) i) (unoff (rsh sh ba i) o).

Record geo (sh ba : list Z) : Prop := {
  geo_len : List.length sh = List.length ba;
  geo_ps : pos sh;
  geo_pb : pos ba
}.

Lemma wft_geo t : wft t -> geo (t_shape t) (t_base t).
Proof. intros H. constructor; [apply wf_len'|apply wf_ps|apply wf_pb]; assumption. Qed.

Lemma geo_app_inv s1 s2 b1 b2 : List.length s1 = List.length b1 -> geo (s1 ++ s2) (b1 ++ b2) -> geo s1 b1 /\ geo s2 b2.
Proof.
  intros Hl [H1 H2 H3]. rewrite !app_length in H1. apply pos_app in H2 as [? ?]. apply pos_app in H3 as [? ?].
  split; constructor; auto. lia.
Qed.

Section G.
Context {sh ba : list Z} (G : geo sh ba).
Lemma geo_grid : pos (gridZ sh ba).
Proof. apply gridZ_pos; apply G. Qed.
Lemma rn_pos : 0 < rn sh ba.
Proof. apply prodZ_pos, geo_grid. Qed.
Lemma rsh_pos i : 0 <= i < rn sh ba -> pos (rsh sh ba i).
Proof. intros Hi. apply tshape_pos; [apply G..|apply unoff_inb; [apply geo_grid|assumption]]. Qed.
Lemma rsz_pos i : 0 <= i < rn sh ba -> 0 < rsz sh ba i.
Proof. intros Hi. apply prodZ_pos, rsh_pos, Hi. Qed.
Lemma rtl_bound idx : inb sh idx -> 0 <= rtl sh ba idx < rn sh ba.
Proof. intros Hi. apply off_bound, tile_of_inb; [apply G..|assumption]. Qed.
Lemma rsh_rtl idx : inb sh idx -> rsh sh ba (rtl sh ba idx) = tshape sh ba (tile_of ba idx).
Proof. intros Hi. unfold rsh, rtl. rewrite unoff_off; [reflexivity|]. apply tile_of_inb; [apply G..|assumption]. Qed.
Lemma rof_bound idx : inb sh idx -> 0 <= rof sh ba idx < rsz sh ba (rtl sh ba idx).
Proof. intros Hi. unfold rsz. rewrite rsh_rtl by assumption. apply off_bound, in_tile_inb; [apply G..|assumption]. Qed.
Lemma ridx_spec i o : 0 <= i < rn sh ba -> 0 <= o < rsz sh ba i ->
  inb sh (ridx sh ba i o) /\ rtl sh ba (ridx sh ba i o) = i /\ rof sh ba (ridx sh ba i o) = o.
Proof.
  intros Hi Ho. pose proof (unoff_inb _ _ geo_grid Hi) as Hg.
  pose proof (unoff_inb _ _ (rsh_pos i Hi) Ho) as He.
  destruct (glob_inv sh ba _ _ (geo_len _ _ G) (geo_pb _ _ G) Hg He) as (G1 & G2 & G3).
  unfold ridx. split; [assumption|]. unfold rtl, rof. rewrite G2, G3.
  split; apply off_unoff; auto using geo_grid, rsh_pos.
Qed.
Lemma ridx_of idx : inb sh idx -> ridx sh ba (rtl sh ba idx) (rof sh ba idx) = idx.
Proof.
  intros Hi. unfold ridx. rewrite rsh_rtl by assumption. unfold rtl, rof.
  rewrite !unoff_off by (first [apply tile_of_inb|apply in_tile_inb]; [apply G..|assumption]).
  destruct G as [Hl _ Hb]. clear - Hl Hb Hi. revert ba Hl Hb. induction Hi as [|s i shape idx Hi H IH]; intros [|b ba'] Hl Hb; simpl in *; try discriminate; auto.
  inversion Hb; subst. unfold glob in *. cbn [map2 combine map]. rewrite IH by auto.
  f_equal. pose proof (Z.div_mod i b ltac:(lia)). lia.
Qed.
End G.

Section App.
Context {s1 b1 s2 b2 : list Z} (G1 : geo s1 b1) (G2 : geo s2 b2).
Lemma geo_app : geo (s1 ++ s2) (b1 ++ b2).
Proof.
  destruct G1, G2. constructor; [rewrite !app_length; lia|apply pos_app; auto|apply pos_app; auto].
Qed.
Lemma rn_app : rn (s1 ++ s2) (b1 ++ b2) = rn s1 b1 * rn s2 b2.
Proof. unfold rn. rewrite gridZ_app by apply G1. apply prodZ_app. Qed.
Lemma split_bound i j : 0 <= i < rn s1 b1 -> 0 <= j < rn s2 b2 -> 0 <= i + rn s1 b1 * j < rn (s1 ++ s2) (b1 ++ b2).
Proof. intros. rewrite rn_app. nia. Qed.
Lemma unoff_split i j : 0 <= i < rn s1 b1 -> 0 <= j < rn s2 b2 ->
  unoff (gridZ (s1 ++ s2) (b1 ++ b2)) (i + rn s1 b1 * j) = unoff (gridZ s1 b1) i ++ unoff (gridZ s2 b2) j.
Proof.
  intros Hi Hj. rewrite gridZ_app by apply G1.
  pose proof (unoff_inb _ _ (geo_grid G1) Hi) as I1. pose proof (unoff_inb _ _ (geo_grid G2) Hj) as I2.
  rewrite <- (unoff_off _ _ (inb_app _ _ _ _ I1 I2)). f_equal.
  rewrite off_app by (rewrite unoff_length; reflexivity).
  rewrite !off_unoff by (auto using (geo_grid G1), (geo_grid G2)). reflexivity.
Qed.
Lemma rsh_app i j : 0 <= i < rn s1 b1 -> 0 <= j < rn s2 b2 ->
  rsh (s1 ++ s2) (b1 ++ b2) (i + rn s1 b1 * j) = rsh s1 b1 i ++ rsh s2 b2 j.
Proof.
  intros Hi Hj. unfold rsh. rewrite unoff_split by assumption. apply tshape_app; [apply G1|].
  rewrite unoff_length, gridZ_length; [reflexivity|apply G1].
Qed.
Lemma rsz_app i j : 0 <= i < rn s1 b1 -> 0 <= j < rn s2 b2 ->
  rsz (s1 ++ s2) (b1 ++ b2) (i + rn s1 b1 * j) = rsz s1 b1 i * rsz s2 b2 j.
Proof. intros Hi Hj. unfold rsz. rewrite rsh_app by assumption. apply prodZ_app. Qed.
Lemma rsh_length i : 0 <= i < rn s1 b1 -> List.length (rsh s1 b1 i) = List.length s1.
Proof.
  intros Hi. unfold rsh. apply tshape_length; [apply G1|]. rewrite unoff_length, gridZ_length; [reflexivity|apply G1].
Qed.
Lemma rtl_app i1 i2 : inb s1 i1 ->
  rtl (s1 ++ s2) (b1 ++ b2) (i1 ++ i2) = rtl s1 b1 i1 + rn s1 b1 * rtl s2 b2 i2.
Proof.
  intros Hi. unfold rtl. pose proof (inb_length _ _ Hi) as Hl. pose proof (geo_len _ _ G1) as Hl1.
  rewrite tile_of_app by congruence. rewrite gridZ_app by assumption. apply off_app.
  rewrite gridZ_length by assumption. unfold tile_of. rewrite map2_length; congruence.
Qed.
Lemma rof_app i1 i2 : inb s1 i1 ->
  rof (s1 ++ s2) (b1 ++ b2) (i1 ++ i2) = rof s1 b1 i1 + rsz s1 b1 (rtl s1 b1 i1) * rof s2 b2 i2.
Proof.
  intros Hi. pose proof (inb_length _ _ Hi) as Hl. pose proof (geo_len _ _ G1) as Hl1.
  assert (Ht : List.length (tile_of b1 i1) = List.length s1) by (unfold tile_of; rewrite map2_length; congruence).
  unfold rof. rewrite tile_of_app, in_tile_app by congruence. rewrite tshape_app by congruence.
  rewrite off_app.
  - unfold rsz. rewrite (rsh_rtl G1) by assumption. reflexivity.
  - rewrite tshape_length by congruence. unfold in_tile. rewrite map2_length; congruence.
Qed.
End App.

(** matrix_shape of split shapes *)
Lemma ms_app s1 s2 : zn (tt_ms (tt_of (s1 ++ s2))) (zlen s1) = (prodZ s1, prodZ s2).
Proof.
  cbn [tt_ms tt_of]. pose proof (zlen_nonneg s1). pose proof (zlen_nonneg s2).
  rewrite zn_ztab by (rewrite zlen_app; lia). unfold zlen. rewrite Nat2Z.id.
  rewrite firstn_app_len, skipn_app_len by reflexivity. reflexivity.
Qed.
Lemma rd_ms_app s1 s2 k : k = zlen s1 -> rd (tt_ms (tt_of (s1 ++ s2))) k = Ok (prodZ s1, prodZ s2).
Proof.
  intros ->. pose proof (zlen_nonneg s1). pose proof (zlen_nonneg s2). rewrite <- ms_app. apply rd_ok.
  cbn [tt_ms tt_of]. rewrite zlen_ztab; rewrite zlen_app; lia.
Qed.
