(** * The index computations of copy_intersection *)
From Verif Require Import Base Spec Geometry Traits TraitsProofs Axis Loops Runtime Ops TensorSem SubcopyOps SubcopyKernel.

(** A vector whose first [k] entries have been filled. *)
Definition tabk {A} (n k : Z) (g h : Z -> A) : list A := ztab n (fun j => if j <? k then g j else h j).

Lemma wr_tabk {A} `{Dflt A} n k (g h : Z -> A) v : 0 <= k < n -> v = g k -> wr (tabk n k g h) k v = Ok (tabk n (k + 1) g h).
Proof.
  intros Hk ->. destruct (wr_ok (tabk n k g h) k (g k)) as (l & E & Hl & V).
  { unfold tabk. rewrite zlen_ztab; lia. }
  rewrite E. f_equal. unfold tabk in *. rewrite zlen_ztab in Hl by lia. apply list_ext.
  - rewrite zlen_ztab; lia.
  - rewrite Hl. intros j Hj. rewrite V by lia. rewrite !zn_ztab by lia.
    destruct (Z.eqb_spec j k) as [E'|E'].
    + rewrite E'. destruct (Z.ltb_spec k (k + 1)); [reflexivity|lia].
    + destruct (Z.ltb_spec j k), (Z.ltb_spec j (k + 1)); try reflexivity; lia.
Qed.
Lemma rd_tabk {A} `{Dflt A} n k (g h : Z -> A) : 0 <= k < n -> rd (tabk n (k + 1) g h) k = Ok (g k).
Proof.
  intros Hk. unfold tabk. rewrite rd_ok by (rewrite zlen_ztab; lia). rewrite zn_ztab by lia.
  destruct (Z.ltb_spec k (k + 1)); [reflexivity|lia].
Qed.
Lemma tabk_0 {A} n (g h : Z -> A) : tabk n 0 g h = ztab n h.
Proof. apply ztab_ext. intros i Hi. destruct (Z.ltb_spec i 0); [lia|reflexivity]. Qed.
Lemma tabk_n {A} n (g h : Z -> A) : tabk n n g h = ztab n g.
Proof. apply ztab_ext. intros i Hi. destruct (Z.ltb_spec i n); [reflexivity|lia]. Qed.
Lemma zrep_ztab {A} `{Dflt A} n (x : A) : 0 <= n -> zrep n x = ztab n (fun _ => x).
Proof.
  intros Hn. apply list_ext; [rewrite zlen_zrep, zlen_ztab; lia|]. rewrite zlen_zrep by lia. intros i Hi.
  rewrite zn_zrep, zn_ztab by lia. reflexivity.
Qed.
Lemma ztab_zn_eq {A} `{Dflt A} (v : list A) n : zlen v = n -> v = ztab n (zn v).
Proof. intros <-. symmetry. apply ztab_zn. Qed.
Lemma cdiv_ok a b : 0 <= a -> 0 < b -> cdiv a b = Ok (a / b).
Proof. intros Ha Hb. unfold cdiv. destruct (Z.eqb_spec b 0); [lia|]. rewrite Z.quot_div_nonneg by lia. reflexivity. Qed.
Lemma rd_ztab {A} `{Dflt A} n (f : Z -> A) k : 0 <= k < n -> rd (ztab n f) k = Ok (f k).
Proof. intros Hk. rewrite rd_ok by (rewrite zlen_ztab; lia). rewrite zn_ztab by lia. reflexivity. Qed.

Lemma prodZ_tab_succ k (c : Z -> Z) : 0 <= k -> prodZ (ztab (k + 1) c) = prodZ (ztab k c) * c k.
Proof. intros Hk. rewrite ztab_succ, prodZ_app by lia. cbn. ring. Qed.

(** ** Per-dimension formulas (mirroring the code) *)
Section Dim.
Variables so ssh doo dsh : Z.   (* src_offset, src.shape, dst_offset, dst.shape in one dimension *)
Definition d_meet : bool := negb ((so + ssh <=? doo) || (doo + dsh <=? so)).
Definition d_ss : Z := if so <? doo then doo - so else 0.
Definition d_ds : Z := if so <? doo then 0 else so - doo.
Definition d_cs : Z := if so <? doo then Z.min (ssh - (doo - so)) dsh else Z.min (dsh - (so - doo)) ssh.

Lemma d_facts : 0 < ssh -> 0 < dsh -> d_meet = true ->
  0 <= d_ss /\ 0 <= d_ds /\ 0 < d_cs /\ d_ss + d_cs <= ssh /\ d_ds + d_cs <= dsh /\ d_ss - d_ds = doo - so.
Proof.
  intros H1 H2 Hm. unfold d_meet in Hm. apply negb_true_iff, orb_false_iff in Hm as [M1 M2]. apply Z.leb_gt in M1, M2.
  unfold d_ss, d_ds, d_cs. destruct (Z.ltb_spec so doo); lia.
Qed.
Lemma d_hit i : 0 < ssh -> 0 <= i < dsh -> d_meet = true -> (0 <= i + doo - so < ssh <-> d_ds <= i < d_ds + d_cs).
Proof.
  intros H1 H2 Hm. unfold d_meet in Hm. apply negb_true_iff, orb_false_iff in Hm as [M1 M2]. apply Z.leb_gt in M1, M2.
  unfold d_ds, d_cs. destruct (Z.ltb_spec so doo); lia.
Qed.
Lemma d_miss i : 0 < ssh -> 0 <= i < dsh -> d_meet = false -> ~ (0 <= i + doo - so < ssh).
Proof.
  intros H1 H2 Hm. unfold d_meet in Hm. apply negb_false_iff, orb_true_iff in Hm as [M|M]; apply Z.leb_le in M; lia.
Qed.
End Dim.

Section Dim2.
(* src_start, dst_start, copy_shape, base tiles and shape of dst in one dimension *)
Variables ss ds cs sbase dbase dsh ssh : Z.
Hypothesis Hf : 0 <= ss /\ 0 <= ds /\ 0 < cs /\ ss + cs <= ssh /\ ds + cs <= dsh /\ 0 < sbase /\ 0 < dbase.
Definition d_tb : Z := ds / dbase.
Definition d_te : Z := (ds + cs - 1) / dbase + 1.

Lemma d_t_range : 0 <= d_tb /\ d_tb < d_te /\ d_te <= (dsh + dbase - 1) / dbase.
Proof.
  unfold d_tb, d_te. destruct Hf as (H1 & H2 & H3 & H4 & H5 & H6 & H7). split; [apply Z.div_pos; lia|]. split.
  - enough (ds / dbase <= (ds + cs - 1) / dbase) by lia. apply Z.div_le_mono; lia.
  - replace (dsh + dbase - 1) with (1 * dbase + (dsh - 1)) by ring. rewrite Z.div_add_l by lia.
    enough ((ds + cs - 1) / dbase <= (dsh - 1) / dbase) by lia. apply Z.div_le_mono; lia.
Qed.

Variable t : Z.
Hypothesis Ht : d_tb <= t < d_te.
Definition d_sb : Z := if t =? d_tb then ss / sbase else (t * dbase - ds + ss) / sbase.
Definition d_se : Z := if t + 1 =? d_te then (ss + cs - 1) / sbase + 1 else ((t + 1) * dbase - 1 - ds + ss) / sbase + 1.
(** part of the destination tile that is overwritten *)
Definition d_lo : Z := Z.max ds (t * dbase).
Definition d_hi : Z := Z.min (ds + cs) ((t + 1) * dbase).
Definition d_bad (x : Z) : bool := ((t =? d_tb) && negb (t * dbase =? ds)) || ((t + 1 =? d_te) && negb (t * dbase + x =? ds + cs)).

Lemma d_tb_bounds : d_tb * dbase <= ds < (d_tb + 1) * dbase /\ (d_te - 1) * dbase <= ds + cs - 1 < d_te * dbase.
Proof.
  unfold d_tb, d_te. destruct Hf as (H1 & H2 & H3 & H4 & H5 & H6 & H7).
  pose proof (Z.div_mod ds dbase ltac:(lia)). pose proof (Z.mod_pos_bound ds dbase ltac:(lia)).
  pose proof (Z.div_mod (ds + cs - 1) dbase ltac:(lia)). pose proof (Z.mod_pos_bound (ds + cs - 1) dbase ltac:(lia)).
  replace ((ds + cs - 1) / dbase + 1 - 1) with ((ds + cs - 1) / dbase) by lia. nia.
Qed.
Lemma d_lo_eq : d_lo = if t =? d_tb then ds else t * dbase.
Proof.
  pose proof d_tb_bounds as [[B1 B2] [B3 B4]]. unfold d_lo. destruct Hf as (H1 & H2 & H3 & H4 & H5 & H6 & H7).
  destruct (Z.eqb_spec t d_tb) as [E|E]; [subst; lia|]. assert ((d_tb + 1) * dbase <= t * dbase) by nia. lia.
Qed.
Lemma d_hi_eq : d_hi = if t + 1 =? d_te then ds + cs else (t + 1) * dbase.
Proof.
  pose proof d_tb_bounds as [[B1 B2] [B3 B4]]. unfold d_hi. destruct Hf as (H1 & H2 & H3 & H4 & H5 & H6 & H7).
  destruct (Z.eqb_spec (t + 1) d_te) as [E|E]; [rewrite E; lia|]. assert ((t + 1) * dbase <= (d_te - 1) * dbase) by nia. lia.
Qed.
Lemma d_lohi : d_lo < d_hi.
Proof.
  pose proof d_tb_bounds as [[B1 B2] [B3 B4]]. destruct Hf as (H1 & H2 & H3 & H4 & H5 & H6 & H7).
  unfold d_lo, d_hi. assert (t * dbase <= (d_te - 1) * dbase) by nia. assert ((d_tb + 1) * dbase <= (t + 1) * dbase) by nia. lia.
Qed.
Lemma d_sb_eq : d_sb = (d_lo - ds + ss) / sbase.
Proof. unfold d_sb. rewrite d_lo_eq. destruct (t =? d_tb); [|reflexivity]. f_equal. lia. Qed.
Lemma d_se_eq : d_se = (d_hi - 1 - ds + ss) / sbase + 1.
Proof. unfold d_se. rewrite d_hi_eq. destruct (t + 1 =? d_te); [|reflexivity]. f_equal. f_equal. lia. Qed.
(** a good tile is completely overwritten in this dimension *)
Lemma d_good x : x = Z.min dbase (dsh - t * dbase) -> d_bad x = false -> d_lo = t * dbase /\ d_hi = t * dbase + x.
Proof.
  intros Hx Hb. unfold d_bad in Hb. apply orb_false_iff in Hb as [B1 B2]. rewrite d_lo_eq, d_hi_eq.
  destruct (Z.eqb_spec t d_tb) as [E|E]; [|split; [reflexivity|]].
  - cbn [andb] in B1. apply negb_false_iff, Z.eqb_eq in B1. split; [lia|].
    destruct (Z.eqb_spec (t + 1) d_te) as [E2|E2].
    + cbn [andb] in B2. apply negb_false_iff, Z.eqb_eq in B2. lia.
    + pose proof d_tb_bounds as [_ [B3 B4]]. destruct Hf as (H1 & H2 & H3 & H4 & H5 & H6 & H7).
      assert ((t + 1) * dbase <= (d_te - 1) * dbase) by nia. lia.
  - destruct (Z.eqb_spec (t + 1) d_te) as [E2|E2].
    + cbn [andb] in B2. apply negb_false_iff, Z.eqb_eq in B2. lia.
    + pose proof d_tb_bounds as [_ [B3 B4]]. destruct Hf as (H1 & H2 & H3 & H4 & H5 & H6 & H7).
      assert ((t + 1) * dbase <= (d_te - 1) * dbase) by nia. lia.
Qed.
Lemma d_s_range : 0 <= d_sb /\ d_sb < d_se /\ d_se <= (ssh + sbase - 1) / sbase.
Proof.
  rewrite d_sb_eq, d_se_eq. pose proof d_lohi as L. destruct Hf as (H1 & H2 & H3 & H4 & H5 & H6 & H7).
  assert (d_lo >= ds) by (unfold d_lo; lia). assert (d_hi <= ds + cs) by (unfold d_hi; lia).
  split; [apply Z.div_pos; lia|]. split.
  - enough ((d_lo - ds + ss) / sbase <= (d_hi - 1 - ds + ss) / sbase) by lia. apply Z.div_le_mono; lia.
  - replace (ssh + sbase - 1) with (1 * sbase + (ssh - 1)) by ring. rewrite Z.div_add_l by lia.
    enough ((d_hi - 1 - ds + ss) / sbase <= (ssh - 1) / sbase) by lia. apply Z.div_le_mono; lia.
Qed.
(** nonnegative dividends *)
Lemma d_sb_nn : 0 <= t * dbase - ds + ss \/ t = d_tb.
Proof.
  destruct (Z.eq_dec t d_tb); [right; assumption|left]. pose proof d_lo_eq as E. destruct (Z.eqb_spec t d_tb); [contradiction|].
  unfold d_lo in E. destruct Hf. lia.
Qed.
Lemma d_se_nn : 0 <= (t + 1) * dbase - 1 - ds + ss.
Proof.
  pose proof d_lohi as L. unfold d_lo, d_hi in L. destruct Hf. lia.
Qed.

Variable u : Z.
Hypothesis Hu : d_sb <= u < d_se.
Definition d_sts : Z := if u =? d_sb then (if t =? d_tb then ss - u * sbase else ss - ds + t * dbase - u * sbase) else 0.
Definition d_dts : Z := if u =? d_sb then (if t =? d_tb then ds - t * dbase else 0) else ds - ss + u * sbase - t * dbase.
Definition d_cts : Z := if u + 1 =? d_se then (if t + 1 =? d_te then ss + cs - u * sbase - d_sts else dbase - d_dts) else sbase - d_sts.
(** part of the destination tile copied from the source tile *)
Definition d_lo2 : Z := Z.max d_lo (u * sbase - (ss - ds)).
Definition d_hi2 : Z := Z.min d_hi ((u + 1) * sbase - (ss - ds)).

Lemma d_u_bounds : d_sb * sbase <= d_lo - ds + ss < (d_sb + 1) * sbase /\ (d_se - 1) * sbase <= d_hi - 1 - ds + ss < d_se * sbase.
Proof.
  rewrite d_sb_eq, d_se_eq. destruct Hf as (H1 & H2 & H3 & H4 & H5 & H6 & H7).
  pose proof (Z.div_mod (d_lo - ds + ss) sbase ltac:(lia)). pose proof (Z.mod_pos_bound (d_lo - ds + ss) sbase ltac:(lia)).
  pose proof (Z.div_mod (d_hi - 1 - ds + ss) sbase ltac:(lia)). pose proof (Z.mod_pos_bound (d_hi - 1 - ds + ss) sbase ltac:(lia)).
  replace ((d_hi - 1 - ds + ss) / sbase + 1 - 1) with ((d_hi - 1 - ds + ss) / sbase) by lia. nia.
Qed.
Lemma d_lo2_eq : d_lo2 = if u =? d_sb then d_lo else u * sbase - (ss - ds).
Proof.
  pose proof d_u_bounds as [[B1 B2] [B3 B4]]. unfold d_lo2. destruct Hf as (H1 & H2 & H3 & H4 & H5 & H6 & H7).
  destruct (Z.eqb_spec u d_sb) as [E|E]; [subst; lia|]. assert ((d_sb + 1) * sbase <= u * sbase) by nia. lia.
Qed.
Lemma d_hi2_eq : d_hi2 = if u + 1 =? d_se then d_hi else (u + 1) * sbase - (ss - ds).
Proof.
  pose proof d_u_bounds as [[B1 B2] [B3 B4]]. unfold d_hi2. destruct Hf as (H1 & H2 & H3 & H4 & H5 & H6 & H7).
  destruct (Z.eqb_spec (u + 1) d_se) as [E|E]; [rewrite E; lia|]. assert ((u + 1) * sbase <= (d_se - 1) * sbase) by nia. lia.
Qed.
Lemma d_lohi2 : d_lo2 < d_hi2.
Proof.
  pose proof d_u_bounds as [[B1 B2] [B3 B4]]. destruct Hf as (H1 & H2 & H3 & H4 & H5 & H6 & H7). pose proof d_lohi.
  unfold d_lo2, d_hi2. assert (u * sbase <= (d_se - 1) * sbase) by nia. assert ((d_sb + 1) * sbase <= (u + 1) * sbase) by nia. lia.
Qed.
Lemma d_sts_eq : d_sts = d_lo2 + (ss - ds) - u * sbase.
Proof. unfold d_sts. rewrite d_lo2_eq, d_lo_eq. destruct (u =? d_sb), (t =? d_tb); lia. Qed.
Lemma d_dts_eq : d_dts = d_lo2 - t * dbase.
Proof. unfold d_dts. rewrite d_lo2_eq, d_lo_eq. destruct (u =? d_sb), (t =? d_tb); lia. Qed.
Lemma d_cts_eq : d_cts = d_hi2 - d_lo2.
Proof.
  unfold d_cts. rewrite d_sts_eq, d_dts_eq, d_hi2_eq, d_hi_eq. destruct (u + 1 =? d_se), (t + 1 =? d_te); lia.
Qed.
(** the boxes are inside the tiles *)
Lemma d_box_dst : 0 <= d_dts /\ 0 < d_cts /\ d_dts + d_cts <= Z.min dbase (dsh - t * dbase).
Proof.
  rewrite d_dts_eq, d_cts_eq. pose proof d_lohi2. destruct Hf as (H1 & H2 & H3 & H4 & H5 & H6 & H7).
  assert (t * dbase <= d_lo2) by (unfold d_lo2, d_lo; lia). assert (d_hi2 <= ds + cs) by (unfold d_hi2, d_hi; lia).
  assert (d_hi2 <= (t + 1) * dbase) by (unfold d_hi2, d_hi; lia). lia.
Qed.
Lemma d_box_src : 0 <= d_sts /\ 0 < d_cts /\ d_sts + d_cts <= Z.min sbase (ssh - u * sbase).
Proof.
  rewrite d_sts_eq, d_cts_eq. pose proof d_lohi2. destruct Hf as (H1 & H2 & H3 & H4 & H5 & H6 & H7).
  assert (u * sbase - (ss - ds) <= d_lo2) by (unfold d_lo2; lia). assert (d_hi2 <= ds + cs) by (unfold d_hi2, d_hi; lia).
  assert (d_hi2 <= (u + 1) * sbase - (ss - ds)) by (unfold d_hi2; lia). lia.
Qed.
(** element i of the destination tile is copied from this source tile iff ... *)
Lemma d_in i : t * dbase <= i < (t + 1) * dbase ->
  (d_lo2 <= i < d_hi2 <-> ds <= i < ds + cs /\ u = (i + (ss - ds)) / sbase).
Proof.
  intros Hi. destruct Hf as (H1 & H2 & H3 & H4 & H5 & H6 & H7).
  pose proof (Z.div_mod (i + (ss - ds)) sbase ltac:(lia)) as Dm. pose proof (Z.mod_pos_bound (i + (ss - ds)) sbase ltac:(lia)) as Db.
  unfold d_lo2, d_hi2, d_lo, d_hi. split.
  - intros Hb. split; [lia|]. set (q := (i + (ss - ds)) / sbase) in *.
    assert (u * sbase <= i + (ss - ds) < (u + 1) * sbase) by lia. nia.
  - intros [Hb ->]. set (q := (i + (ss - ds)) / sbase) in *. assert (q * sbase <= i + (ss - ds) < (q + 1) * sbase) by lia. lia.
Qed.
(** a single source tile in this dimension *)
Lemma d_single : d_se = d_sb + 1 -> d_lo2 = d_lo /\ d_hi2 = d_hi.
Proof.
  intros E. assert (u = d_sb) by lia. rewrite d_lo2_eq, d_hi2_eq. split.
  - destruct (Z.eqb_spec u d_sb); [reflexivity|contradiction].
  - destruct (Z.eqb_spec (u + 1) d_se); [reflexivity|lia].
Qed.
End Dim2.

(** The tile an element of the intersection comes from is in the range. *)
Lemma d_tile_range ss ds cs sbase dbase dsh ssh i :
  0 <= ss /\ 0 <= ds /\ 0 < cs /\ ss + cs <= ssh /\ ds + cs <= dsh /\ 0 < sbase /\ 0 < dbase -> ds <= i < ds + cs ->
  d_tb ds dbase <= i / dbase < d_te ds cs dbase.
Proof.
  intros (H1 & H2 & H3 & H4 & H5 & H6 & H7) Hi. unfold d_tb, d_te. split; [apply Z.div_le_mono; lia|].
  enough (i / dbase <= (ds + cs - 1) / dbase) by lia. apply Z.div_le_mono; lia.
Qed.
Lemma d_src_range ss ds cs sbase dbase dsh ssh i :
  0 <= ss /\ 0 <= ds /\ 0 < cs /\ ss + cs <= ssh /\ ds + cs <= dsh /\ 0 < sbase /\ 0 < dbase -> ds <= i < ds + cs ->
  d_sb ss ds sbase dbase (i / dbase) <= (i + (ss - ds)) / sbase < d_se ss ds cs sbase dbase (i / dbase).
Proof.
  intros Hf Hi. pose proof (d_tile_range ss ds cs sbase dbase dsh ssh i Hf Hi) as Ht.
  rewrite (d_sb_eq ss ds cs sbase dbase dsh ssh Hf _ Ht), (d_se_eq ss ds cs sbase dbase dsh ssh Hf _ Ht).
  destruct Hf as (H1 & H2 & H3 & H4 & H5 & H6 & H7).
  pose proof (Z.div_mod i dbase ltac:(lia)) as Dm. pose proof (Z.mod_pos_bound i dbase ltac:(lia)) as Db.
  set (t := i / dbase) in *. unfold d_lo, d_hi. split; [apply Z.div_le_mono; lia|].
  enough ((i + (ss - ds)) / sbase <= (Z.min (ds + cs) ((t + 1) * dbase) - 1 - ds + ss) / sbase) by lia. apply Z.div_le_mono; lia.
Qed.

(** ** The loops of the code compute these formulas *)
Section Eval.
Variables (src dst : tensor) (src_offset dst_offset : list Z).
Hypothesis (Hs : wft src) (Hd : wft dst).
Notation n := (zlen (t_shape src)).
Hypothesis (Hn : zlen (t_shape dst) = n) (Lso : zlen src_offset = n) (Ldo : zlen dst_offset = n).

Definition ev_meet k := d_meet (zn src_offset k) (zn (t_shape src) k) (zn dst_offset k) (zn (t_shape dst) k).
Definition ev_ss k := d_ss (zn src_offset k) (zn dst_offset k).
Definition ev_ds k := d_ds (zn src_offset k) (zn dst_offset k).
Definition ev_cs k := d_cs (zn src_offset k) (zn (t_shape src) k) (zn dst_offset k) (zn (t_shape dst) k).
Definition ev_tb k := d_tb (ev_ds k) (zn (t_base dst) k).
Definition ev_te k := d_te (ev_ds k) (ev_cs k) (zn (t_base dst) k).

Lemma ev_bs k : 0 <= k < n -> 0 < zn (t_base src) k.
Proof. intros Hk. apply (proj1 (pos_zn _) (wf_pb _ Hs)). rewrite (wf_len _ Hs). lia. Qed.
Lemma ev_bd k : 0 <= k < n -> 0 < zn (t_base dst) k.
Proof. intros Hk. apply (proj1 (pos_zn _) (wf_pb _ Hd)). rewrite (wf_len _ Hd). lia. Qed.
Lemma ev_hs k : 0 <= k < n -> 0 < zn (t_shape src) k.
Proof. intros Hk. apply (proj1 (pos_zn _) (wf_ps _ Hs)). lia. Qed.
Lemma ev_hd k : 0 <= k < n -> 0 < zn (t_shape dst) k.
Proof. intros Hk. apply (proj1 (pos_zn _) (wf_ps _ Hd)). lia. Qed.

Lemma ev_dim k : 0 <= k < n -> ev_meet k = true ->
  0 <= ev_ss k /\ 0 <= ev_ds k /\ 0 < ev_cs k /\ ev_ss k + ev_cs k <= zn (t_shape src) k /\ ev_ds k + ev_cs k <= zn (t_shape dst) k /\
  0 < zn (t_base src) k /\ 0 < zn (t_base dst) k.
Proof.
  intros Hk Hm. destruct (d_facts _ _ _ _ (ev_hs k Hk) (ev_hd k Hk) Hm) as (H1 & H2 & H3 & H4 & H5 & _).
  pose proof (ev_bs k Hk). pose proof (ev_bd k Hk). unfold ev_ss, ev_ds, ev_cs. repeat (split; [lia|]). lia.
Qed.

Lemma forallb_snoc {A} (f : A -> bool) l x : forallb f (l ++ [x]) = forallb f l && f x.
Proof. rewrite forallb_app. cbn. rewrite andb_true_r. reflexivity. Qed.
Lemma existsb_snoc {A} (f : A -> bool) l x : existsb f (l ++ [x]) = existsb f l || f x.
Proof. rewrite existsb_app. cbn. rewrite orb_false_r. reflexivity. Qed.

Lemma ci_box_ok : ci_box src dst src_offset dst_offset =
  Ok (if forallb ev_meet (zrange n) then
        Some (ztab n ev_ss, ztab n ev_ds, ztab n ev_cs, ztab n ev_tb, ztab n ev_te, prodZ (ztab n (fun k => ev_te k - ev_tb k)))
      else None).
Proof.
  pose proof (zlen_nonneg (t_shape src)) as Nn. pose proof (wf_len _ Hs) as Lbs. pose proof (wf_len _ Hd) as Lbd.
  unfold ci_box. rewrite (t_ndim_eq _ Hs).
  edestruct (for_inv (fun i st => st = if forallb ev_meet (zrange i) then
      Some (tabk n i ev_ss (fun _ => 0), tabk n i ev_ds (fun _ => 0), tabk n i ev_cs (fun _ => 0),
            tabk n i ev_tb (fun _ => 0), tabk n i ev_te (fun _ => 0), prodZ (ztab i (fun k => ev_te k - ev_tb k))) else None)
    0 n) as (st & E & I); [exact Nn| | |rewrite E, I].
  - cbn. rewrite !tabk_0, <- !(zrep_ztab n 0) by lia. reflexivity.
  - intros i st Hi ->. cbv beta. rewrite zrange_succ, forallb_snoc by lia.
    destruct (forallb ev_meet (zrange i)) eqn:Ef; [|eexists; split; reflexivity]. cbn [andb].
    rewrite !(rd_ok src_offset), !(rd_ok (t_shape src)), !(rd_ok dst_offset), !(rd_ok (t_shape dst)) by lia. do 4 bnd.
    unfold ev_meet at 1, d_meet at 1.
    destruct ((zn src_offset i + zn (t_shape src) i <=? zn dst_offset i) || (zn dst_offset i + zn (t_shape dst) i <=? zn src_offset i)) eqn:Em;
      cbn [negb]; [eexists; split; reflexivity|].
    assert (Hm : ev_meet i = true) by (unfold ev_meet, d_meet; rewrite Em; reflexivity).
    destruct (ev_dim i Hi Hm) as (F1 & F2 & F3 & F4 & F5 & F6 & F7).
    assert (Est : (if zn src_offset i <? zn dst_offset i then
             src_start <- wr (tabk n i ev_ss (fun _ => 0)) i (zn dst_offset i - zn src_offset i) ;;
             dst_start <- wr (tabk n i ev_ds (fun _ => 0)) i 0 ;;
             a <- rd src_start i ;;
             copy_shape <- wr (tabk n i ev_cs (fun _ => 0)) i (Z.min (zn (t_shape src) i - a) (zn (t_shape dst) i)) ;;
             Ok (src_start, dst_start, copy_shape)
           else
             src_start <- wr (tabk n i ev_ss (fun _ => 0)) i 0 ;;
             dst_start <- wr (tabk n i ev_ds (fun _ => 0)) i (zn src_offset i - zn dst_offset i) ;;
             a <- rd dst_start i ;;
             copy_shape <- wr (tabk n i ev_cs (fun _ => 0)) i (Z.min (zn (t_shape dst) i - a) (zn (t_shape src) i)) ;;
             Ok (src_start, dst_start, copy_shape)) =
           Ok (tabk n (i + 1) ev_ss (fun _ => 0), tabk n (i + 1) ev_ds (fun _ => 0), tabk n (i + 1) ev_cs (fun _ => 0))).
    { destruct (zn src_offset i <? zn dst_offset i) eqn:El.
      - rewrite wr_tabk; [|lia|unfold ev_ss, d_ss; rewrite El; reflexivity]. bnd.
        rewrite wr_tabk; [|lia|unfold ev_ds, d_ds; rewrite El; reflexivity]. bnd.
        rewrite rd_tabk by lia. bnd.
        rewrite wr_tabk; [|lia|unfold ev_cs, d_cs, ev_ss, d_ss; rewrite El; reflexivity]. reflexivity.
      - rewrite wr_tabk; [|lia|unfold ev_ss, d_ss; rewrite El; reflexivity]. bnd.
        rewrite wr_tabk; [|lia|unfold ev_ds, d_ds; rewrite El; reflexivity]. bnd.
        rewrite rd_tabk by lia. bnd.
        rewrite wr_tabk; [|lia|unfold ev_cs, d_cs, ev_ds, d_ds; rewrite El; reflexivity]. reflexivity. }
    rewrite Est. bnd. rewrite !rd_tabk by lia. rewrite (rd_ok (t_base dst)) by lia. do 3 bnd.
    rewrite cdiv_ok by lia. bnd. rewrite wr_tabk by (try lia; reflexivity). bnd.
    rewrite cdiv_ok by lia. bnd. rewrite wr_tabk by (try lia; reflexivity). bnd. rewrite !rd_tabk by lia. do 2 bnd.
    eexists; split; [reflexivity|]. rewrite prodZ_tab_succ by lia. reflexivity.
  - rewrite !tabk_n. reflexivity.
Qed.

Hypothesis (Hmeet : forallb ev_meet (zrange n) = true).
Lemma ev_meet_at k : 0 <= k < n -> ev_meet k = true.
Proof. intros Hk. rewrite forallb_forall in Hmeet. apply Hmeet, zrange_In. assumption. Qed.
Lemma ev_dim' k : 0 <= k < n ->
  0 <= ev_ss k /\ 0 <= ev_ds k /\ 0 < ev_cs k /\ ev_ss k + ev_cs k <= zn (t_shape src) k /\ ev_ds k + ev_cs k <= zn (t_shape dst) k /\
  0 < zn (t_base src) k /\ 0 < zn (t_base dst) k.
Proof. intros Hk. apply ev_dim, ev_meet_at; assumption. Qed.

Variable dti : list Z.
Hypothesis (Ldti : zlen dti = n) (Hdti : forall k, 0 <= k < n -> ev_tb k <= zn dti k < ev_te k).
Definition ev_sb k := d_sb (ev_ss k) (ev_ds k) (zn (t_base src) k) (zn (t_base dst) k) (zn dti k).
Definition ev_se k := d_se (ev_ss k) (ev_ds k) (ev_cs k) (zn (t_base src) k) (zn (t_base dst) k) (zn dti k).
Definition ev_bad (dtsh : list Z) k := d_bad (ev_ds k) (ev_cs k) (zn (t_base dst) k) (zn dti k) (zn dtsh k).

Lemma ci_range_ok dtsh : zlen dtsh = n ->
  ci_range src dst (ztab n ev_ss) (ztab n ev_ds) (ztab n ev_cs) (ztab n ev_tb) (ztab n ev_te) dti dtsh =
  Ok (ztab n ev_sb, ztab n ev_se, if existsb (ev_bad dtsh) (zrange n) then MRW else MW,
      prodZ (ztab n (fun k => ev_se k - ev_sb k))).
Proof.
  intros Ldt. pose proof (zlen_nonneg (t_shape src)) as Nn. pose proof (wf_len _ Hs) as Lbs. pose proof (wf_len _ Hd) as Lbd.
  unfold ci_range. rewrite (t_ndim_eq _ Hs).
  edestruct (for_inv (fun i st => st = (tabk n i ev_sb (fun _ => 0), tabk n i ev_se (fun _ => 0),
      if existsb (ev_bad dtsh) (zrange i) then MRW else MW, prodZ (ztab i (fun k => ev_se k - ev_sb k)))) 0 n) as (st & E & I);
    [exact Nn| | |rewrite E, I].
  - cbn. rewrite !tabk_0, <- !(zrep_ztab n 0) by lia. reflexivity.
  - intros i st Hi ->. cbv beta iota. rewrite zrange_succ, existsb_snoc by lia.
    rewrite !rd_ztab by lia. rewrite (rd_ok dti), (rd_ok (t_base src)), (rd_ok (t_base dst)) by lia. do 8 bnd.
    pose proof (ev_dim' i Hi) as F. pose proof (Hdti i Hi) as Ht.
    pose proof (d_sb_nn _ _ _ _ _ _ _ F _ Ht) as Nb. pose proof (d_se_nn _ _ _ _ _ _ _ F _ Ht) as Ne.
    destruct F as (F1 & F2 & F3 & F4 & F5 & F6 & F7). fold (ev_tb i) in Nb.
    set (m := if existsb (ev_bad dtsh) (zrange i) then MRW else MW).
    assert (E1 : (if zn dti i =? ev_tb i then
        q <- cdiv (ev_ss i) (zn (t_base src) i) ;; sb <- wr (tabk n i ev_sb (fun _ => 0)) i q ;;
        Ok (sb, if negb (zn dti i * zn (t_base dst) i =? ev_ds i) then MRW else m)
      else
        q <- cdiv (zn dti i * zn (t_base dst) i - ev_ds i + ev_ss i) (zn (t_base src) i) ;; sb <- wr (tabk n i ev_sb (fun _ => 0)) i q ;;
        Ok (sb, m)) = Ok (tabk n (i + 1) ev_sb (fun _ => 0),
           if (zn dti i =? ev_tb i) && negb (zn dti i * zn (t_base dst) i =? ev_ds i) then MRW else m)).
    { destruct (zn dti i =? ev_tb i) eqn:Eb.
      - rewrite cdiv_ok by lia. bnd. rewrite wr_tabk; [reflexivity|lia|]. unfold ev_sb, d_sb. unfold ev_tb in Eb. rewrite Eb. reflexivity.
      - apply Z.eqb_neq in Eb as Eb'. rewrite cdiv_ok by lia. bnd. rewrite wr_tabk; [reflexivity|lia|].
        unfold ev_sb, d_sb. unfold ev_tb in Eb. rewrite Eb. reflexivity. }
    rewrite E1. bnd. clear E1.
    set (m1 := if (zn dti i =? ev_tb i) && negb (zn dti i * zn (t_base dst) i =? ev_ds i) then MRW else m).
    assert (E2 : (if zn dti i + 1 =? ev_te i then
        q <- cdiv (ev_ss i + ev_cs i - 1) (zn (t_base src) i) ;; se <- wr (tabk n i ev_se (fun _ => 0)) i (q + 1) ;;
        x <- rd dtsh i ;;
        Ok (se, if negb (zn dti i * zn (t_base dst) i + x =? ev_ds i + ev_cs i) then MRW else m1)
      else
        q <- cdiv ((zn dti i + 1) * zn (t_base dst) i - 1 - ev_ds i + ev_ss i) (zn (t_base src) i) ;;
        se <- wr (tabk n i ev_se (fun _ => 0)) i (q + 1) ;; Ok (se, m1)) =
      Ok (tabk n (i + 1) ev_se (fun _ => 0),
          if (zn dti i + 1 =? ev_te i) && negb (zn dti i * zn (t_base dst) i + zn dtsh i =? ev_ds i + ev_cs i) then MRW else m1)).
    { destruct (zn dti i + 1 =? ev_te i) eqn:Eb.
      - rewrite cdiv_ok by lia. bnd. rewrite wr_tabk.
        + bnd. rewrite rd_ok by lia. reflexivity.
        + lia.
        + unfold ev_se, d_se. unfold ev_te in Eb. rewrite Eb. reflexivity.
      - rewrite cdiv_ok by lia. bnd. rewrite wr_tabk; [reflexivity|lia|].
        unfold ev_se, d_se. unfold ev_te in Eb. rewrite Eb. reflexivity. }
    rewrite E2. bnd. clear E2. rewrite !rd_tabk by lia. do 2 bnd.
    eexists; split; [reflexivity|]. rewrite prodZ_tab_succ by lia. f_equal. f_equal.
    unfold m1, m, ev_bad, d_bad. fold (ev_tb i). fold (ev_te i). destruct (existsb _ (zrange i)), ((zn dti i =? ev_tb i) && _), ((zn dti i + 1 =? ev_te i) && _); reflexivity.
  - rewrite !tabk_n. reflexivity.
Qed.

Variable sti : list Z.
Hypothesis (Lsti : zlen sti = n).
Definition ev_sts k := d_sts (ev_ss k) (ev_ds k) (zn (t_base src) k) (zn (t_base dst) k) (zn dti k) (zn sti k).
Definition ev_dts k := d_dts (ev_ss k) (ev_ds k) (zn (t_base src) k) (zn (t_base dst) k) (zn dti k) (zn sti k).
Definition ev_cts k := d_cts (ev_ss k) (ev_ds k) (ev_cs k) (zn (t_base src) k) (zn (t_base dst) k) (zn dti k) (zn sti k).

Lemma ci_next_ok v : zlen (fst (fst v)) = n -> zlen (snd (fst v)) = n -> zlen (snd v) = n ->
  ci_next src dst (ztab n ev_ss) (ztab n ev_ds) (ztab n ev_cs) (ztab n ev_tb) (ztab n ev_te) dti (ztab n ev_sb) (ztab n ev_se) sti v =
  Ok (ztab n ev_sts, ztab n ev_dts, ztab n ev_cts).
Proof.
  destruct v as [[v1 v2] v3]. cbn [fst snd]. intros L1 L2 L3.
  pose proof (zlen_nonneg (t_shape src)) as Nn. pose proof (wf_len _ Hs) as Lbs. pose proof (wf_len _ Hd) as Lbd.
  unfold ci_next. rewrite (t_ndim_eq _ Hs).
  edestruct (for_inv (fun i st => st = (tabk n i ev_sts (zn v1), tabk n i ev_dts (zn v2), tabk n i ev_cts (zn v3))) 0 n) as (st & E & I);
    [exact Nn| | |rewrite E, I].
  - cbn. rewrite !tabk_0. f_equal; [f_equal|]; apply ztab_zn_eq; assumption.
  - intros i st Hi ->. cbv beta iota.
    rewrite !rd_ztab by lia. rewrite (rd_ok dti), (rd_ok (t_base src)), (rd_ok (t_base dst)), (rd_ok sti) by lia. do 11 bnd.
    assert (E1 : (if zn sti i =? ev_sb i then
        if zn dti i =? ev_tb i then
          sts <- wr (tabk n i ev_sts (zn v1)) i (ev_ss i - zn sti i * zn (t_base src) i) ;;
          dts <- wr (tabk n i ev_dts (zn v2)) i (ev_ds i - zn dti i * zn (t_base dst) i) ;;
          Ok (sts, dts)
        else
          sts <- wr (tabk n i ev_sts (zn v1)) i (ev_ss i - ev_ds i + zn dti i * zn (t_base dst) i - zn sti i * zn (t_base src) i) ;;
          dts <- wr (tabk n i ev_dts (zn v2)) i 0 ;;
          Ok (sts, dts)
      else
        sts <- wr (tabk n i ev_sts (zn v1)) i 0 ;;
        dts <- wr (tabk n i ev_dts (zn v2)) i (ev_ds i - ev_ss i + zn sti i * zn (t_base src) i - zn dti i * zn (t_base dst) i) ;;
        Ok (sts, dts)) = Ok (tabk n (i + 1) ev_sts (zn v1), tabk n (i + 1) ev_dts (zn v2))).
    { unfold ev_sb, ev_tb. destruct (zn sti i =? _) eqn:Ea; [destruct (zn dti i =? _) eqn:Eb|].
      all: rewrite wr_tabk; [bnd|lia|unfold ev_sts, d_sts; rewrite ?Ea, ?Eb; reflexivity].
      all: rewrite wr_tabk; [reflexivity|lia|unfold ev_dts, d_dts; rewrite ?Ea, ?Eb; reflexivity]. }
    rewrite E1. bnd. clear E1. rewrite !rd_tabk by lia. do 2 bnd.
    assert (E2 : (if zn sti i + 1 =? ev_se i then
        if zn dti i + 1 =? ev_te i then wr (tabk n i ev_cts (zn v3)) i (ev_ss i + ev_cs i - zn sti i * zn (t_base src) i - ev_sts i)
        else wr (tabk n i ev_cts (zn v3)) i (zn (t_base dst) i - ev_dts i)
      else wr (tabk n i ev_cts (zn v3)) i (zn (t_base src) i - ev_sts i)) = Ok (tabk n (i + 1) ev_cts (zn v3))).
    { unfold ev_se, ev_te. destruct (zn sti i + 1 =? _) eqn:Ea; [destruct (zn dti i + 1 =? _) eqn:Eb|].
      all: rewrite wr_tabk; [reflexivity|lia|unfold ev_cts, d_cts; rewrite ?Ea, ?Eb; reflexivity]. }
    rewrite E2. bnd. eexists; split; reflexivity.
  - rewrite !tabk_n. reflexivity.
Qed.
End Eval.

Lemma zn_sb_tab src dst so do_ dti k : 0 <= k < zlen (t_shape src) ->
  zn (ztab (zlen (t_shape src)) (ev_sb src dst so do_ dti)) k = ev_sb src dst so do_ dti k.
Proof. intros Hk. apply zn_ztab. assumption. Qed.

Lemma ci_first_ok src dst so do_ dti : wft src -> wft dst -> zlen (t_shape dst) = zlen (t_shape src) ->
  zlen so = zlen (t_shape src) -> zlen do_ = zlen (t_shape src) -> zlen dti = zlen (t_shape src) ->
  let n := zlen (t_shape src) in
  let sb := ztab n (ev_sb src dst so do_ dti) in
  ci_first src dst (ztab n (ev_ss so do_)) (ztab n (ev_ds so do_)) (ztab n (ev_cs src dst so do_)) (ztab n (ev_tb dst so do_))
    (ztab n (ev_te src dst so do_)) dti sb (ztab n (ev_se src dst so do_ dti)) =
  Ok (ztab n (ev_sts src dst so do_ dti sb), ztab n (ev_dts src dst so do_ dti sb), ztab n (ev_cts src dst so do_ dti sb)).
Proof.
  intros Hs Hd Hn Lso Ldo Ldti n sb. pose proof (zlen_nonneg (t_shape src)) as Nn. fold n in Nn, Hn, Lso, Ldo, Ldti.
  pose proof (zn_sb_tab src dst so do_ dti) as Zsb. fold n sb in Zsb.
  etransitivity; [|apply (ci_next_ok src dst so do_ Hs Hd Hn dti Ldti sb ltac:(subst sb; rewrite zlen_ztab; lia)
    (zrep n 0, zrep n 0, zrep n 0)); cbn [fst snd]; rewrite zlen_zrep; unfold n; lia].
  unfold ci_first, ci_next. rewrite (t_ndim_eq _ Hs). fold n. apply for_ext.
  intros i [[v1 v2] v3] Hi. cbv beta iota.
  pose proof (wf_len _ Hs) as Lbs. pose proof (wf_len _ Hd) as Lbd. unfold sb at 1 2.
  rewrite !rd_ztab by lia. rewrite (rd_ok dti), (rd_ok (t_base src)), (rd_ok (t_base dst)) by lia. repeat bnd.
  rewrite Z.eqb_refl. reflexivity.
Qed.
