(** * embedding and embedding_backward at the tensor level *)
From Coq Require Import Permutation FinFun.
From Verif Require Import Base Spec Geometry Traits TraitsProofs Runtime Ops TensorSem ElemGeneric OneOut
  KernelsElem ElemOps Axis AccRuns Loops SliceOps SliceGeo SliceProofs Sequence KeepRuns GemmRuns LossOps LossProofs.

(** The shapes embedding is meant for: [index] is [embed] without [axis]; the rows of [vocab] run along
    [axis]; each tile of [embed] covers whole tiles of [vocab] rows. *)
Definition emb_match (index vocab embed : tensor) (axis : Z) : Prop :=
  slice_match embed index axis /\ zlen (t_shape vocab) = 2 /\
  zn (t_shape embed) axis = zn (t_shape vocab) 0 /\ (zn (t_base vocab) 0 | zn (t_base embed) axis).

(** What the code actually checks when 0 <= axis < ndim: nothing about dimension axis-1 of [index]. *)
Definition emb_checked (index vocab embed : tensor) (axis : Z) : Prop :=
  zlen (t_shape index) + 1 = zlen (t_shape embed) /\ zlen (t_shape vocab) = 2 /\
  (forall i, 0 <= i < axis - 1 -> zn (t_shape index) i = zn (t_shape embed) i /\ zn (t_base index) i = zn (t_base embed) i) /\
  (forall i, axis <= i < zlen (t_shape index) ->
     zn (t_shape index) i = zn (t_shape embed) (i + 1) /\ zn (t_base index) i = zn (t_base embed) (i + 1)) /\
  zn (t_shape embed) axis = zn (t_shape vocab) 0 /\ (zn (t_base vocab) 0 | zn (t_base embed) axis).

Lemma fold_hit {A X} (f : A -> X -> A) (P : X -> bool) (w : A) l x :
  (forall a y, In y l -> P y = false -> f a y = a) -> (forall a y, In y l -> P y = true -> f a y = w) ->
  In x l -> P x = true -> forall a, fold_left f l a = w.
Proof.
  intros H1 H2. assert (G : forall l', (forall y, In y l' -> In y l) -> fold_left f l' w = w).
  { induction l' as [|y l' IH]; intros Hi; [reflexivity|]. cbn [fold_left]. destruct (P y) eqn:E.
    - rewrite H2; [|apply Hi; left; reflexivity|assumption]. apply IH. intros z Hz. apply Hi. right. assumption.
    - rewrite H1; [|apply Hi; left; reflexivity|assumption]. apply IH. intros z Hz. apply Hi. right. assumption. }
  intros Hx Px a. apply in_split in Hx as (l1 & l2 & ->). rewrite fold_left_app. cbn [fold_left].
  rewrite H2; [|apply in_or_app; right; left; reflexivity|assumption]. apply G.
  intros y Hy. apply in_or_app. right. right. assumption.
Qed.

Lemma list2 (l : list Z) : zlen l = 2 -> exists a b, l = [a; b].
Proof.
  intros H. destruct l as [|a [|b [|c l]]]; rewrite ?zlen_cons, ?zlen_nil in H; try lia; [eauto|].
  pose proof (zlen_nonneg l). lia.
Qed.
Lemma flat_map_single {A B} (f : A -> B) l : flat_map (fun x => [f x]) l = map f l.
Proof. induction l as [|x l IH]; [reflexivity|]. cbn [flat_map map app]. rewrite IH. reflexivity. Qed.
Lemma NoDup_app' {A} (l k : list A) : NoDup l -> NoDup k -> (forall x, In x l -> In x k -> False) -> NoDup (l ++ k).
Proof.
  induction l as [|x l IH]; intros Hl Hk Hd; [assumption|]. inversion Hl; subst. cbn [app]. constructor.
  - rewrite in_app_iff. intros [H|H]; [contradiction|]. apply (Hd x); [left; reflexivity|assumption].
  - apply IH; [assumption|assumption|]. intros y Hy. apply Hd. right. assumption.
Qed.
Lemma NoDup_map_inj {A B} (f : A -> B) l : (forall a b, In a l -> In b l -> f a = f b -> a = b) -> NoDup l -> NoDup (map f l).
Proof.
  induction l as [|x l IH]; intros Hf Hl; [constructor|]. inversion Hl; subst. cbn [map]. constructor.
  - intros Hin. apply in_map_iff in Hin as (y & E & Hy). assert (y = x) by (apply Hf; [right; assumption|left; reflexivity|assumption]). subst. contradiction.
  - apply IH; [|assumption]. intros a b Ha Hb. apply Hf; right; assumption.
Qed.
Lemma map_shift_range {A} (f : Z -> A) a n : map (fun t => f (a + t)) (zrange n) = map f (map (fun t => a + t) (zrange n)).
Proof. rewrite map_map. reflexivity. Qed.

Section E.
Context {T : Type} {O : Ops T}.
Local Notation vec := (list T).
Variables (index vocab embed : tensor) (axis : Z).
Hypothesis (HI : wft index) (HV : wft vocab) (HE : wft embed).

Lemma embedding_check_checks : 0 <= axis < zlen (t_shape embed) ->
  checks (emb_checked index vocab embed axis) (embedding_check index vocab embed axis).
Proof.
  intros Ha. unfold embedding_check. rewrite !t_ndim_eq by assumption.
  pose proof (wf_len index HI) as L1. pose proof (wf_len vocab HV) as L2. pose proof (wf_len embed HE) as L3.
  apply (checks_iff (zlen (t_shape index) + 1 = zlen (t_shape embed) /\ zlen (t_shape vocab) = 2 /\
    (forall i, 0 <= i < axis - 1 -> zn (t_shape index) i = zn (t_shape embed) i /\ zn (t_base index) i = zn (t_base embed) i) /\
    (forall i, axis <= i < zlen (t_shape index) ->
     zn (t_shape index) i = zn (t_shape embed) (i + 1) /\ zn (t_base index) i = zn (t_base embed) (i + 1)) /\
    zn (t_shape embed) axis = zn (t_shape vocab) 0 /\ (zn (t_base vocab) 0 | zn (t_base embed) axis) /\ True)).
  { unfold emb_checked. tauto. }
  apply checks_eq. intros E1. apply checks_eq. intros E2. apply checks_seq.
  { apply checks_for. intros i Hi. apply check_dim_checks; (assumption || lia). }
  intros _. apply checks_seq.
  { apply checks_for. intros i Hi. apply check_dim_checks; (assumption || lia). }
  intros _. rewrite !rd_ok' by lia. apply checks_eq. intros E3.
  pose proof (proj1 (pos_zn _) (wf_pb embed HE)) as P1. pose proof (proj1 (pos_zn _) (wf_pb vocab HV)) as P2.
  assert (0 < zn (t_base embed) axis) by (apply P1; lia). assert (0 < zn (t_base vocab) 0) by (apply P2; lia).
  rewrite crem_ok by lia. bnd. apply checks_if; [| |intros; apply checks_ok].
  - intros E D. apply Z.mod_divide in D; [|lia]. rewrite D in E. discriminate.
  - intros E. apply negb_false_iff, Z.eqb_eq in E. apply Z.mod_divide; [lia|assumption].
Qed.

Lemma emb_match_checked : emb_match index vocab embed axis -> emb_checked index vocab embed axis.
Proof.
  intros ((Ha & E1 & E2) & Hv & Hs & Hd). pose proof (wf_len embed HE) as LE.
  assert (Ha' : 0 <= axis < zlen (t_base embed)) by lia.
  apply del_eq in E1; [|assumption]. apply del_eq in E2; [|assumption].
  destruct E1 as (L1 & A1 & B1). destruct E2 as (L2 & A2 & B2).
  split; [lia|]. split; [assumption|]. split; [|split; [|split; assumption]].
  - intros i Hi. split; symmetry; [apply A1|apply A2]; lia.
  - intros i Hi. specialize (B1 (i + 1)). specialize (B2 (i + 1)). rewrite Z.add_simpl_r in B1, B2. split; symmetry; [apply B1|apply B2]; lia.
Qed.

Section Geo.
Hypothesis (HM : emb_match index vocab embed axis).
Let HS : slice_match embed index axis := proj1 HM.
Notation gb := (gridZ (t_shape embed) (t_base embed)).
Notation gs := (gridZ (t_shape index) (t_base index)).
Notation eb := (zn (t_base embed) axis).
Notation vb := (zn (t_base vocab) 0).
Notation vs := (zn (t_shape vocab) 0).

(** index tile and position along the axis of an embed tile *)
Definition em_a (i : Z) : Z := off gs (del axis (unoff gb i)).
Definition em_j (i : Z) : Z := zn (unoff gb i) axis.
Definition em_k (i : Z) : Z := zn (dim3 axis (tsh embed i)) 1.
Definition em_start (i : Z) : Z := em_j i * eb / vb.
Definition em_per (i : Z) : Z := (em_k i - 1) / vb + 1.
(** rows of vocab tile [t] *)
Definition em_kz (t : Z) : Z := Z.min vb (vs - t * vb).
(** columns of the first column of vocab tiles *)
Definition em_V : Z := Z.min (zn (t_base vocab) 1) (zn (t_shape vocab) 1).
Definition em_rows : Z := zn (gridZ (t_shape vocab) (t_base vocab)) 0.

Lemma em_pos : 0 < eb /\ 0 < vb /\ 0 < vs /\ 0 < zn (t_base vocab) 1 /\ 0 < zn (t_shape vocab) 1.
Proof.
  pose proof HS as (Ha & _). pose proof HM as (_ & Hv & _). pose proof (wf_len vocab HV). pose proof (wf_len embed HE).
  split; [apply (proj1 (pos_zn _) (wf_pb embed HE)); lia|]. split; [apply (proj1 (pos_zn _) (wf_pb vocab HV)); lia|].
  split; [apply (proj1 (pos_zn _) (wf_ps vocab HV)); lia|]. split; [apply (proj1 (pos_zn _) (wf_pb vocab HV)); lia|apply (proj1 (pos_zn _) (wf_ps vocab HV)); lia].
Qed.

Lemma em_tile i : 0 <= i < ntiles embed ->
  0 <= em_a i < ntiles index /\ 0 <= em_j i < sg_n embed axis /\ sg_out embed index axis (em_a i, em_j i) = i /\
  inb gs (del axis (unoff gb i)).
Proof.
  intros Hi. pose proof HS as (Ha & _). pose proof (wf_len embed HE) as LE. pose proof (zlen_gb embed HE) as Lg.
  assert (Hin : inb gb (unoff gb i)) by (apply unoff_inb; [apply wf_pg; assumption|assumption]).
  assert (Hd : inb gs (del axis (unoff gb i))).
  { rewrite (gs_eq embed index axis HE HS). apply inb_del; [lia|assumption]. }
  assert (Hj : 0 <= em_j i < sg_n embed axis).
  { unfold em_j, sg_n. apply Axis.inb_zn; [assumption|lia]. }
  split; [apply off_bound; assumption|]. split; [assumption|]. split; [|assumption].
  unfold sg_out. cbn [fst snd]. unfold em_a. rewrite unoff_off by assumption. unfold em_j.
  rewrite ins_del by (rewrite zlen_unoff; lia). apply off_unoff; [apply wf_pg; assumption|assumption].
Qed.

Lemma em_start_eq i : 0 <= i < ntiles embed -> em_start i = em_j i * (eb / vb) /\ eb / vb * vb = eb /\ em_start i * vb = em_j i * eb.
Proof.
  intros Hi. destruct em_pos as (P1 & P2 & _). pose proof HM as (_ & _ & _ & (q & Eq)).
  assert (Dq : eb / vb = q) by (rewrite Eq; apply Z.div_mul; lia).
  assert (Es : em_start i = em_j i * q).
  { unfold em_start. rewrite Eq at 1. rewrite Z.mul_assoc. apply Z.div_mul. lia. }
  rewrite Es, Dq. split; [reflexivity|]. split; [lia|]. rewrite Eq. ring.
Qed.

Lemma em_k_eq i : 0 <= i < ntiles embed -> em_k i = Z.min eb (vs - em_j i * eb) /\ 0 < em_k i.
Proof.
  intros Hi. destruct (em_tile i Hi) as (H1 & H2 & H3 & _).
  destruct (sg_sizes embed index axis HE HI HS _ _ H1 H2) as (_ & D1 & _ & _ & _ & _ & D). cbv zeta in *.
  rewrite H3 in D, D1. unfold em_k. split; [|assumption]. rewrite D. pose proof HM as (_ & _ & -> & _). reflexivity.
Qed.

Lemma em_range i t : 0 <= i < ntiles embed -> 0 <= t < em_per i ->
  0 <= em_start i + t < em_rows /\ 0 <= t * vb /\ 0 < em_kz (em_start i + t) /\ t * vb + em_kz (em_start i + t) <= em_k i.
Proof.
  intros Hi Ht. destruct em_pos as (P1 & P2 & P3 & _). destruct (em_k_eq i Hi) as (Ek & Kp).
  destruct (em_start_eq i Hi) as (Es & Eq & Em). destruct (em_tile i Hi) as (_ & Hj & _).
  pose proof HM as (_ & Hv & _). pose proof (wf_len vocab HV) as LV.
  unfold em_per in Ht. assert (Ht' : t * vb <= em_k i - 1).
  { assert (t <= (em_k i - 1) / vb) by lia. pose proof (Z.mul_div_le (em_k i - 1) vb P2). nia. }
  assert (Hlt : (em_start i + t) * vb < vs) by (rewrite Z.mul_add_distr_r, Em; lia).
  assert (H0 : 0 <= em_start i) by (rewrite Es; apply Z.mul_nonneg_nonneg; [lia|apply Z.div_pos; lia]).
  split; [|split; [nia|split]].
  - split; [lia|]. unfold em_rows. rewrite zn_gridZ by lia.
    apply Z.lt_le_trans with ((em_start i + t) + 1); [lia|]. apply Z.div_le_lower_bound; [lia|].
    rewrite (Z.mul_comm vb). lia.
  - unfold em_kz. lia.
  - unfold em_kz. rewrite Z.mul_add_distr_r, Em.
    destruct (Z.le_gt_cases eb (vs - em_j i * eb)) as [C|C].
    + assert (Ek' : em_k i = eb) by lia. assert (t * vb < eb / vb * vb) by lia. assert (t < eb / vb) by nia. nia.
    + lia.
Qed.

Lemma em_vtile t : 0 <= t < em_rows -> 0 <= t < ntiles vocab /\ tsh vocab t = [em_kz t; em_V] /\ tsz vocab t = em_kz t * em_V.
Proof.
  intros Ht. pose proof HM as (_ & Hv & _). pose proof (wf_len vocab HV) as LV. pose proof (wf_pg vocab HV) as PG.
  unfold em_rows in Ht. unfold ntiles, tsz, tsh, em_kz, em_V.
  clear HS HM.
  rewrite Hv in LV. destruct (list2 _ Hv) as (s0 & s1 & E0). destruct (list2 _ LV) as (b0 & b1 & E1). rewrite E0, E1 in *.
  cbn [gridZ map2] in *. change (zn [s0; s1] 0) with s0. change (zn [b0; b1] 0) with b0. change (zn [s0; s1] 1) with s1. change (zn [b0; b1] 1) with b1.
  change (zn [(s0 + b0 - 1) / b0; (s1 + b1 - 1) / b1] 0) with ((s0 + b0 - 1) / b0) in Ht.
  inversion PG as [|? ? G0 PG']; subst. inversion PG' as [|? ? G1 _]; subst.
  set (g0 := (s0 + b0 - 1) / b0) in *. set (g1 := (s1 + b1 - 1) / b1) in *.
  split; [cbn [prodZ]; nia|]. cbn [unoff]. rewrite Z.mod_small, Z.div_small by lia. rewrite Z.mod_0_l by lia.
  cbn [tshape prodZ]. rewrite Z.mul_0_l, Z.sub_0_r. split; [reflexivity|ring].
Qed.

Lemma em_velem c v : 0 <= c < vs -> 0 <= v < em_V ->
  inb (t_shape vocab) [c; v] /\ etile vocab [c; v] = c / vb /\ eoff vocab [c; v] = em_kz (c / vb) * v + c mod vb /\
  0 <= c / vb < em_rows.
Proof.
  intros Hc Hv0. pose proof HM as (_ & Hv & _). pose proof (wf_len vocab HV) as LV.
  destruct em_pos as (_ & P2 & P3 & P4 & P5). unfold em_rows. rewrite zn_gridZ by lia.
  assert (Hr : 0 <= c / vb < (vs + vb - 1) / vb).
  { pose proof (Z.mul_div_le c vb P2). assert (0 <= c / vb) by (apply Z.div_pos; lia). split; [assumption|].
    apply Z.lt_le_trans with (c / vb + 1); [lia|]. apply Z.div_le_lower_bound; nia. }
  unfold em_kz, em_V in *. revert Hr.
  unfold etile, eoff.
  clear HS HM.
  rewrite Hv in LV. destruct (list2 _ Hv) as (s0 & s1 & E0). destruct (list2 _ LV) as (b0 & b1 & E1). rewrite E0, E1 in *.
  change (zn [s0; s1] 0) with s0 in *. change (zn [b0; b1] 0) with b0 in *. change (zn [s0; s1] 1) with s1 in *. change (zn [b0; b1] 1) with b1 in *.
  intros Hr. split; [constructor; [assumption|constructor; [lia|constructor]]|].
  cbn [gridZ map2 tile_of in_tile tshape off]. rewrite (Z.div_small v b1), (Z.mod_small v b1) by lia.
  split; [ring|]. split; [ring|assumption].
Qed.

(** coverage: position l along the axis of tile i is in the row range of one vocab tile *)
Lemma em_cover i l : 0 <= i < ntiles embed -> 0 <= l < em_k i ->
  0 <= l / vb < em_per i /\ l / vb * vb <= l < l / vb * vb + em_kz (em_start i + l / vb) /\
  (em_j i * eb + l) / vb = em_start i + l / vb /\ (em_j i * eb + l) mod vb = l - l / vb * vb.
Proof.
  intros Hi Hl. destruct em_pos as (P1 & P2 & P3 & _). destruct (em_k_eq i Hi) as (Ek & Kp). destruct (em_start_eq i Hi) as (Es & Eq & Em).
  assert (Hvb : vb <> 0) by lia. pose proof (Z.div_mod l vb Hvb) as DM. pose proof (Z.mod_pos_bound l vb P2) as MB.
  assert (H0 : 0 <= l / vb) by (apply Z.div_pos; lia).
  split; [split; [assumption|unfold em_per; assert (l / vb <= (em_k i - 1) / vb) by (apply Z.div_le_mono; lia); lia]|].
  split.
  - unfold em_kz. rewrite Z.mul_add_distr_r, Em. lia.
  - rewrite <- Em. split.
    + rewrite Z.div_add_l by lia. reflexivity.
    + rewrite Z.add_comm, Z.mod_add by lia. lia.
Qed.

(** *** The submitted tasks *)
Lemma index_index_ok i : 0 <= i < ntiles embed -> index_index index axis (unoff gb i) = Ok (del axis (unoff gb i)).
Proof.
  intros Hi. pose proof HS as (Ha & E1 & _). pose proof (wf_len embed HE) as LE.
  assert (Li : zlen (t_shape index) = zlen (t_shape embed) - 1) by (rewrite E1; apply zlen_del; assumption).
  assert (Lu : zlen (unoff gb i) = zlen (t_shape embed)) by (rewrite zlen_unoff, zlen_gridZ by assumption; reflexivity).
  unfold index_index. rewrite t_ndim_eq by assumption.
  destruct (fill_lo (unoff gb i) axis (zrep (zlen (t_shape index)) 0%Z)) as (v & -> & Lv & Zv).
  { lia. } { rewrite zlen_zrep; lia. }
  bnd. rewrite zlen_zrep in Lv by lia.
  destruct (for_inv (fun q (w : list Z) => zlen w = zlen (t_shape index) /\ forall p, 0 <= p ->
     zn w p = if (axis <=? p) && (p <? q) then zn (unoff gb i) (p + 1) else zn v p) axis (zlen (t_shape index))
     (fun j v => x <- rd (unoff gb i) (j + 1) ;; wr v j x) v) as (w & -> & Lw & Zw).
  - lia.
  - split; [assumption|]. intros p Hp. destruct (Z.leb_spec axis p); [|reflexivity]. destruct (Z.ltb_spec p axis); [lia|reflexivity].
  - intros q w Hq [Lw Zw]. rewrite rd_ok' by lia. destruct (wr_ok w q (zn (unoff gb i) (q + 1))) as (w' & -> & Lw' & Zw'); [lia|].
    exists w'. split; [reflexivity|]. split; [lia|]. intros p Hp. rewrite Zw', Zw by assumption.
    destruct (Z.eqb_spec p q) as [->|].
    + rewrite (proj2 (Z.leb_le axis q)), (proj2 (Z.ltb_lt q (q + 1))) by lia. reflexivity.
    + destruct (Z.leb_spec axis p); [|reflexivity]. cbn [andb].
      destruct (Z.ltb_spec p q); destruct (Z.ltb_spec p (q + 1)); try reflexivity; lia.
  - f_equal. apply list_ext; [rewrite zlen_del by lia; lia|]. intros p Hp. rewrite Zw by lia. rewrite zn_del by lia.
    destruct (Z.leb_spec axis p); destruct (Z.ltb_spec p axis); try lia; cbn [andb].
    + rewrite (proj2 (Z.ltb_lt p (zlen (t_shape index)))) by lia. reflexivity.
    + rewrite Zv by lia. rewrite (proj2 (Z.ltb_lt p axis)) by lia. reflexivity.
Qed.

Lemma vocab_range_ok i : 0 <= i < ntiles embed ->
  vocab_range embed vocab axis (tt_of (tsh embed i)) (unoff gb i) = Ok (em_start i, em_per i).
Proof.
  intros Hi. pose proof HS as (Ha & _). pose proof (wf_len embed HE) as LE. pose proof HM as (_ & Hv & _). pose proof (wf_len vocab HV) as LV.
  destruct em_pos as (P1 & P2 & _). destruct (em_k_eq i Hi) as (_ & Kp). destruct (em_tile i Hi) as (_ & Hj & _).
  assert (Lu : zlen (unoff gb i) = zlen (t_shape embed)) by (rewrite zlen_unoff, zlen_gridZ by assumption; reflexivity).
  unfold vocab_range. change (tt_shape (tt_of (tsh embed i))) with (tsh embed i).
  rewrite rd_ok' by (rewrite zlen_tsh by assumption; lia). change (zn (tsh embed i) axis) with (em_k i).
  rewrite rd_ok' by lia. rewrite cdiv_ok by lia. bnd. rewrite rd_ok' by lia. rewrite rd_ok' by lia.
  unfold em_j in Hj. rewrite cdiv_ok by nia. bnd. reflexivity.
Qed.

Definition em_m (i : Z) : Z := zn (dim3 axis (tsh embed i)) 0.
Definition em_n (i : Z) : Z := zn (dim3 axis (tsh embed i)) 2.

Lemma vocab_sizes_ok i t : 0 <= i < ntiles embed -> 0 <= t < em_per i ->
  vocab_sizes vocab axis (tt_of (tsh embed i)) (em_start i) (em_start i + t) =
    Ok (th vocab (em_start i + t), (em_m i, em_n i, em_k i, t * vb, em_kz (em_start i + t))).
Proof.
  intros Hi Ht. pose proof HS as (Ha & _). destruct (em_range i t Hi Ht) as (Hr & _). destruct (em_vtile _ Hr) as (Hn & Esh & _).
  pose proof HM as (_ & Hv & _). pose proof (wf_len vocab HV) as LV.
  unfold vocab_sizes. rewrite get_tile_handle_ok, get_tile_traits_ok by assumption. bnd. bnd.
  rewrite tile_mnk_ok by (rewrite zlen_tsh by assumption; lia). bnd. rewrite rd_ok' by lia.
  change (tt_shape (tt_of (tsh vocab (em_start i + t)))) with (tsh vocab (em_start i + t)). rewrite Esh.
  change (rd [em_kz (em_start i + t); em_V] 0) with (Ok (em_kz (em_start i + t))). bnd. unfold em_m, em_n, em_k. do 4 f_equal. ring.
Qed.

Lemma em_sizes i : 0 <= i < ntiles embed ->
  0 < em_m i /\ 0 < em_k i /\ 0 < em_n i /\ tsz index (em_a i) = em_m i * em_n i /\ tsz embed i = em_m i * (em_k i * em_n i).
Proof.
  intros Hi. destruct (em_tile i Hi) as (H1 & H2 & H3 & _).
  destruct (sg_sizes embed index axis HE HI HS _ _ H1 H2) as (D0 & D1 & D2 & _ & T1 & T2 & _). cbv zeta in *. rewrite H3 in *.
  unfold em_m, em_k, em_n. auto.
Qed.

(** Every task reads valid indices. *)
Lemma em_index (s : store T) i p : (forall idx, inb (t_shape index) idx -> 0 <= ielem s index idx < em_V) ->
  0 <= i < ntiles embed -> 0 <= p < em_m i * em_n i -> 0 <= zn (il (s (th index (em_a i)))) p < em_V.
Proof.
  intros H Hi Hp. destruct (em_tile i Hi) as (H1 & _). destruct (em_sizes i Hi) as (_ & _ & _ & T1 & _). rewrite <- T1 in Hp.
  destruct (eidx_spec index (em_a i) p HI H1 Hp) as (I1 & I2 & I3). specialize (H _ I1). unfold ielem in H. rewrite I2, I3 in H. assumption.
Qed.

(** *** embedding *)
Definition em_step (i t : Z) : task T :=
  embedding_submit (em_m i) (em_n i) (em_k i) (t * vb) (em_kz (em_start i + t)) (th index (em_a i)) (th vocab (em_start i + t)) (th embed i).
Definition em_xs : list (Z * option Z) :=
  flat_map (fun i => (i, None) :: map (fun t => (i, Some t)) (zrange (em_per i))) (zrange (ntiles embed)).
Definition em_task (x : Z * option Z) : task T :=
  match snd x with None => clear_submit (th embed (fst x)) | Some t => em_step (fst x) t end.

Lemma embedding_submits : embedding_async index vocab embed axis = Ok (map em_task em_xs).
Proof.
  unfold embedding_async. rewrite (checks_true _ _ (embedding_check_checks (proj1 HS)) (emb_match_checked HM)). bnd.
  rewrite t_ntiles_eq by assumption. unfold em_xs. rewrite map_flat_map.
  rewrite (for_flat _ _ (fun i => map em_task ((i, None) :: map (fun t => (i, Some t)) (zrange (em_per i))))); [reflexivity|].
  intros i acc Hi. destruct (em_tile i Hi) as (H1 & H2 & H3 & H4).
  rewrite get_tile_handle_ok, get_tile_traits_ok by assumption. bnd. bnd. rewrite t_grid_eq by assumption.
  rewrite linear_to_index_ok by (assumption || apply wf_pg; assumption). bnd. cbv zeta.
  rewrite index_index_ok by assumption. bnd. rewrite get_tile_handle_idx_ok by assumption. bnd.
  rewrite vocab_range_ok by assumption. bnd.
  rewrite (for_append _ _ _ (fun t => [em_step i (t - em_start i)])).
  - rewrite Z.add_simpl_l. rewrite flat_map_single. cbn [map]. rewrite map_map, <- app_assoc. cbn [app]. do 3 f_equal.
    apply map_ext. intros t. rewrite Z.add_simpl_l. reflexivity.
  - intros t acc' Ht. replace t with (em_start i + (t - em_start i)) at 1 by ring.
    rewrite vocab_sizes_ok by (assumption || lia). bnd. unfold em_step.
    replace (em_start i + (t - em_start i)) with t by ring. reflexivity.
Qed.

Theorem embedding_runs s : disj index embed -> disj vocab embed -> stored KI s index -> stored KF s vocab -> stored KF s embed ->
  (forall idx, inb (t_shape index) idx -> 0 <= ielem s index idx < em_V) ->
  runs_keep [index] (embedding_async index vocab embed axis) s (fun s' =>
    (forall idx, inb (t_shape embed) idx ->
       elem s' embed idx = elem s vocab [zn idx axis; ielem s index (del axis idx)]) /\
    frame [embed] s s').
Proof.
  intros D1 D2 S1 S2 S3 Hix.
  assert (Hin : forall x, In x em_xs -> 0 <= fst x < ntiles embed /\ (forall t, snd x = Some t -> 0 <= t < em_per (fst x))).
  { intros x Hx. unfold em_xs in Hx. apply in_flat_map in Hx as (i & Hi & [<-|Hx]).
    - apply zrange_In in Hi. split; [assumption|discriminate].
    - apply in_map_iff in Hx as (t & <- & Ht). apply zrange_In in Hi. apply zrange_In in Ht. split; [assumption|].
      cbn [fst snd]. intros t' E. inversion E; subst. assumption. }
  eapply keep_weaken; [apply (kacc_elem [index] embed em_xs fst (fun x => match snd x with None => MW | Some _ => MRW end)
    (fun x => match snd x with None => [] | Some t => [th index (em_a (fst x)); th vocab (em_start (fst x) + t)] end) (fun _ => []) (fun _ => [])
    (fun x => match snd x with None => clear_cpu | Some t =>
       embedding_cpu (em_m (fst x)) (em_n (fst x)) (em_k (fst x)) (t * vb) (em_kz (em_start (fst x) + t)) end)
    (fun x b1 _ o v => match snd x with None => o_zero | Some t =>
       let d := [em_m (fst x); em_k (fst x); em_n (fst x)] in let l := cz d 1 o in
       if (t * vb <=? l) && (l <? t * vb + em_kz (em_start (fst x) + t))
       then zn (fl (nth 1 b1 (BF []))) (em_kz (em_start (fst x) + t) * zn (il (nth 0 b1 (BF []))) (cz d 0 o + em_m (fst x) * cz d 2 o) + (l - t * vb))
       else v end))|].
  - assumption.
  - assumption.
  - rewrite embedding_submits. f_equal. apply map_ext. intros [i [t|]]; reflexivity.
  - intros x Hx. apply Hin. assumption.
  - intros [i [t|]] _; auto.
  - intros [i [t|]] h Hx; cbn [snd fst]; [|intros [[]|[[]|[]]]].
    destruct (Hin _ Hx) as [Hi Ht]. cbn [fst snd] in *. specialize (Ht t eq_refl).
    intros [[<-|[<-|[]]]|[[]|[]]].
    + apply disj_notin; [assumption|assumption|]. apply em_tile. assumption.
    + apply disj_notin; [assumption|assumption|]. apply em_vtile. apply em_range; assumption.
  - intros k [<-|[]]. apply disj_sym. assumption.
  - intros [i [t|]] b1 b2 o v v' _ E; [discriminate|reflexivity].
  - intros [i [t|]] st d sc Hx Hk Hl Hsc; destruct (Hin _ Hx) as [Hi Ht]; cbn [fst snd] in *; (destruct sc; [|discriminate]); exists []; (split; [|reflexivity]).
    2:{ cbn [map app clear_cpu]. do 4 f_equal. rewrite Hl. apply list_ext; pose proof (tsz_pos embed i HE Hi).
        - rewrite zlen_zrep, zlen_ztab by lia. reflexivity.
        - rewrite zlen_zrep by lia. intros o Ho. rewrite zn_zrep, zn_ztab by lia. reflexivity. }
    specialize (Ht t eq_refl). destruct (em_tile i Hi) as (Ha & _ & _ & _). destruct (em_range i t Hi Ht) as (Hr & Hk0 & Hkz & Hkk).
    destruct (em_vtile _ Hr) as (Hn & _ & Ez). destruct (em_sizes i Hi) as (M1 & M2 & M3 & T1 & T2).
    assert (Es : st (th index (em_a i)) = s (th index (em_a i))) by (apply (proj2 Hk index); [left; reflexivity|apply th_In; assumption]).
    destruct (ty_BI (s (th index (em_a i))) (tsz index (em_a i))) as (a & Ea & La); [apply S1; assumption|].
    destruct (bufF s st vocab _ (proj1 Hk) S2 Hn) as (b & Eb & Lb).
    cbn [map app nth]. rewrite Es, Ea, Eb. cbn [embedding_cpu app fl il].
    rewrite (k_embedding_ok _ _ _ _ _ em_V); [bnd; rewrite T2; reflexivity|assumption|assumption|assumption|assumption|assumption|assumption|congruence|congruence|congruence|].
    intros p Hp. pose proof (em_index s i p Hix Hi Hp) as Q. rewrite Ea in Q. assumption.
  - intros s' _ [H1 H2]. split; [|assumption]. intros idx Hi. rewrite H1 by assumption.
    pose proof (etile_bound embed idx HE Hi) as Hb. set (i := etile embed idx) in *.
    destruct (sg_geo embed index axis HE HI HS idx Hi) as (G1 & G2 & G3 & G4 & G5). cbv zeta in *.
    set (l := zn idx axis mod eb) in *. set (j := zn idx axis / eb) in *.
    destruct (em_tile i Hb) as (A1 & A2 & A3 & _).
    destruct (sg_out_inj embed index axis HE HI HS _ _ _ _ A1 A2 G2 G3) as (Ea & Ej); [rewrite A3; assumption|].
    rewrite <- G4 in G5. fold i in G5. destruct G5 as (o0 & o2 & O0 & O2 & Ol & Eo & Eo').
    fold (em_m i) in O0, Eo, Eo'. fold (em_n i) in O2. fold (em_k i) in Ol, Eo.
    destruct em_pos as (P1 & P2 & P3 & _). pose proof HS as (Hax & _).
    assert (Eax : zn idx axis = em_j i * eb + l).
    { rewrite Ej. unfold j, l. rewrite (Z.mul_comm _ eb). apply Z.div_mod. lia. }
    destruct (em_cover i l Hb Ol) as (C1 & C2 & C3 & C4).
    assert (Hc : 0 <= zn idx axis < vs).
    { pose proof HM as (_ & _ & <- & _). apply Axis.inb_zn; assumption. }
    pose proof (Hix _ G1) as Hv.
    destruct (em_velem (zn idx axis) (ielem s index (del axis idx)) Hc Hv) as (_ & V1 & V2 & V3).
    assert (Ef : filter (fun x => fst x =? i) em_xs = (i, None) :: map (fun t => (i, Some t)) (zrange (em_per i))).
    { unfold em_xs. clear - Hb. assert (G : forall L, NoDup L -> In i L ->
        filter (fun x => fst x =? i) (flat_map (fun i => (i, None) :: map (fun t => (i, Some t)) (zrange (em_per i))) L)
        = (i, None) :: map (fun t => (i, Some t)) (zrange (em_per i))).
      { induction L as [|y L IH]; intros Hnd Hin; [contradiction|]. inversion Hnd as [|? ? Hni Hnd']; subst. cbn [flat_map].
        rewrite filter_app'. destruct (Z.eq_dec y i) as [->|Hne].
        - rewrite filter_all, filter_none, app_nil_r; [reflexivity| |].
          + intros x Hx. apply in_flat_map in Hx as (z & Hz & [<-|Hx]); [apply Z.eqb_neq; cbn; congruence|].
            apply in_map_iff in Hx as (t & <- & _). apply Z.eqb_neq; cbn; congruence.
          + intros x [<-|Hx]; [apply Z.eqb_refl|]. apply in_map_iff in Hx as (t & <- & _). apply Z.eqb_refl.
        - destruct Hin as [->|Hin]; [contradiction|]. rewrite filter_none; [apply IH; assumption|].
          intros x [<-|Hx]; [apply Z.eqb_neq; assumption|]. apply in_map_iff in Hx as (t & <- & _). apply Z.eqb_neq; assumption. }
      apply G; [apply NoDup_zrange|apply zrange_In; assumption]. }
    rewrite Ef. cbn [fold_left snd].
    apply (fold_hit _ (fun x => match snd x with None => false | Some t => (t * vb <=? l) && (l <? t * vb + em_kz (em_start i + t)) end) _ _ (i, Some (l / vb))).
    + intros a x Hx E. apply in_map_iff in Hx as (t & <- & Ht). cbn [fst snd] in *.
      rewrite Eo. destruct (cz3 (em_m i) (em_k i) (em_n i) o0 l o2 O0 Ol O2) as (Z0 & Z1 & Z2 & _). rewrite Z1, E. reflexivity.
    + intros a x Hx E. apply in_map_iff in Hx as (t & <- & Ht). apply zrange_In in Ht. cbn [fst snd] in *.
      rewrite Eo. destruct (cz3 (em_m i) (em_k i) (em_n i) o0 l o2 O0 Ol O2) as (Z0 & Z1 & Z2 & _). rewrite Z0, Z1, Z2, E.
      assert (Et : t = l / vb).
      { apply andb_true_iff in E as [E3 E4]. apply Z.leb_le in E3. apply Z.ltb_lt in E4. unfold em_kz in E4.
        apply (Z.div_unique _ _ _ (l - t * vb)); lia. }
      cbn [map nth]. unfold elem. rewrite V1, V2. rewrite Eax, C3, C4, Et. f_equal. f_equal. f_equal.
      unfold ielem. rewrite Eo', Ea. reflexivity.
    + apply in_map_iff. exists (l / vb). split; [reflexivity|]. apply zrange_In. assumption.
    + cbn [snd]. apply andb_true_iff. split; [apply Z.leb_le; lia|apply Z.ltb_lt; lia].
Qed.

(** *** embedding_backward, without the reduction mode *)
Definition eb_xs : list (Z * Z) := flat_map (fun i => map (pair i) (zrange (em_per i))) (zrange (ntiles embed)).
Definition eb_out (x : Z * Z) : Z := em_start (fst x) + snd x.
Definition eb_task (redux : bool) (x : Z * Z) : task T :=
  embedding_backward_submit (em_m (fst x)) (em_n (fst x)) (em_k (fst x)) (snd x * vb) (em_kz (eb_out x))
    (th index (em_a (fst x))) (th embed (fst x)) (th vocab (eb_out x)) redux.

Lemma embedding_backward_submits redux : embedding_backward_async index embed vocab axis redux = Ok (map (eb_task redux) eb_xs).
Proof.
  unfold embedding_backward_async. rewrite (checks_true _ _ (embedding_check_checks (proj1 HS)) (emb_match_checked HM)). bnd.
  rewrite t_ntiles_eq by assumption. unfold eb_xs. rewrite map_flat_map.
  rewrite (for_flat _ _ (fun i => map (eb_task redux) (map (pair i) (zrange (em_per i))))); [reflexivity|].
  intros i acc Hi. destruct (em_tile i Hi) as (H1 & H2 & H3 & H4).
  rewrite get_tile_handle_ok, get_tile_traits_ok by assumption. bnd. bnd. rewrite t_grid_eq by assumption.
  rewrite linear_to_index_ok by (assumption || apply wf_pg; assumption). bnd.
  rewrite index_index_ok by assumption. bnd. rewrite get_tile_handle_idx_ok by assumption. bnd.
  rewrite vocab_range_ok by assumption. bnd.
  rewrite (for_append _ _ _ (fun t => [eb_task redux (i, t - em_start i)])).
  - rewrite Z.add_simpl_l. rewrite flat_map_single. rewrite map_map. do 2 f_equal.
    apply map_ext. intros t. rewrite Z.add_simpl_l. reflexivity.
  - intros t acc' Ht. replace t with (em_start i + (t - em_start i)) at 1 by ring.
    rewrite vocab_sizes_ok by (assumption || lia). bnd. unfold eb_task, eb_out. cbn [fst snd].
    replace (em_start i + (t - em_start i)) with t by ring. reflexivity.
Qed.

Lemma eb_xs_In x : In x eb_xs <-> 0 <= fst x < ntiles embed /\ 0 <= snd x < em_per (fst x).
Proof.
  unfold eb_xs. rewrite in_flat_map. destruct x as [i t]. cbn [fst snd]. split.
  - intros (i' & Hi & Hx). apply in_map_iff in Hx as (t' & E & Ht). inversion E; subst. apply zrange_In in Hi. apply zrange_In in Ht. auto.
  - intros [Hi Ht]. exists i. split; [apply zrange_In; assumption|]. apply in_map. apply zrange_In. assumption.
Qed.
Lemma eb_xs_NoDup : NoDup eb_xs.
Proof.
  unfold eb_xs. assert (G : forall L, NoDup L -> NoDup (flat_map (fun i => map (pair i) (zrange (em_per i))) L)).
  { induction L as [|i L IH]; intros Hn; [constructor|]. inversion Hn as [|? ? Hni Hn']; subst. cbn [flat_map]. apply NoDup_app'.
    - apply Injective_map_NoDup; [intros a b E; inversion E; reflexivity|apply NoDup_zrange].
    - apply IH. assumption.
    - intros x Hx Hx'. apply in_map_iff in Hx as (t & <- & _). apply in_flat_map in Hx' as (i' & Hi' & Hx').
      apply in_map_iff in Hx' as (t' & E & _). inversion E; subst. contradiction. }
  apply G. apply NoDup_zrange.
Qed.

Definition eb_term (x : Z * Z) (b1 : list (buf T)) (o : Z) (v : T) : T :=
  eb_cell (em_m (fst x)) (em_n (fst x)) (em_k (fst x)) (snd x * vb) (em_kz (eb_out x)) (il (nth 0 b1 (BF []))) (fl (nth 1 b1 (BF []))) o v.

Theorem embedding_backward_runs s : disj index vocab -> disj embed vocab -> stored KI s index -> stored KF s vocab -> stored KF s embed ->
  (forall idx, inb (t_shape index) idx -> 0 <= ielem s index idx < em_V) ->
  runs_keep [index] (embedding_backward_async index embed vocab axis false) s (fun s' =>
    (forall idx, inb (t_shape vocab) idx ->
       elem s' vocab idx = fold_left (fun v x => eb_term x [s (th index (em_a (fst x))); s (th embed (fst x))] (eoff vocab idx) v)
         (filter (fun x => eb_out x =? etile vocab idx) eb_xs) (elem s vocab idx)) /\
    frame [vocab] s s').
Proof.
  intros D1 D2 S1 S2 S3 Hix.
  eapply keep_weaken; [apply (kacc_elem [index] vocab eb_xs eb_out (fun x => MRW)
    (fun x => [th index (em_a (fst x)); th embed (fst x)]) (fun _ => []) (fun _ => [])
    (fun x => embedding_backward_cpu (em_m (fst x)) (em_n (fst x)) (em_k (fst x)) (snd x * vb) (em_kz (eb_out x)))
    (fun x b1 _ o v => eb_term x b1 o v))|].
  - assumption.
  - assumption.
  - exact (embedding_backward_submits false).
  - intros [i t] Hx. apply eb_xs_In in Hx as [Hi Ht]. apply em_vtile. apply em_range; assumption.
  - auto.
  - intros [i t] h Hx. apply eb_xs_In in Hx as [Hi Ht]. cbn [fst snd] in *. intros [[<-|[<-|[]]]|[[]|[]]].
    + apply disj_notin; [assumption|assumption|]. apply em_tile. assumption.
    + apply disj_notin; assumption.
  - intros k [<-|[]]. apply disj_sym. assumption.
  - discriminate.
  - intros [i t] st d sc Hx Hk Hl Hsc. apply eb_xs_In in Hx as [Hi Ht]. cbn [fst snd] in *. destruct sc; [|discriminate]. exists []. split; [|reflexivity].
    destruct (em_tile i Hi) as (Ha & _ & _ & _). destruct (em_range i t Hi Ht) as (Hr & Hk0 & Hkz & Hkk).
    destruct (em_vtile _ Hr) as (Hn & _ & Ez). destruct (em_sizes i Hi) as (M1 & M2 & M3 & T1 & T2).
    assert (Es : st (th index (em_a i)) = s (th index (em_a i))) by (apply (proj2 Hk index); [left; reflexivity|apply th_In; assumption]).
    destruct (ty_BI (s (th index (em_a i))) (tsz index (em_a i))) as (a & Ea & La); [apply S1; assumption|].
    destruct (bufF s st embed _ (proj1 Hk) S3 Hi) as (b & Eb & Lb). unfold eb_out, eb_term in *. cbn [fst snd] in *.
    cbn [map app nth]. rewrite Es, Ea, Eb. cbn [embedding_backward_cpu app fl il].
    rewrite (k_embedding_backward_ok _ _ _ _ _ em_V); [bnd; rewrite Ez; reflexivity|assumption|assumption|assumption|assumption|assumption|assumption|congruence|congruence|congruence|].
    intros p Hp. pose proof (em_index s i p Hix Hi Hp) as Q. rewrite Ea in Q. assumption.
  - intros s' _ [H1 H2]. split; assumption.
Qed.

(** The embed tiles that contribute to vocab tile [c / vb]: one for each tile of [index]. *)
Lemma eb_hits c v : 0 <= c < vs -> 0 <= v < em_V ->
  let j := c / eb in
  0 <= j < sg_n embed axis /\
  Permutation (filter (fun x => eb_out x =? etile vocab [c; v]) eb_xs)
    (map (fun a => (sg_out embed index axis (a, j), c / vb - j * (eb / vb))) (zrange (ntiles index))) /\
  forall a, 0 <= a < ntiles index -> let i := sg_out embed index axis (a, j) in
    0 <= i < ntiles embed /\ em_a i = a /\ em_j i = j /\ eb_out (i, c / vb - j * (eb / vb)) = c / vb /\
    0 <= c / vb - j * (eb / vb) < em_per i /\
    0 <= c mod eb < em_k i /\ (c / vb - j * (eb / vb)) * vb + c mod vb = c mod eb.
Proof.
  intros Hc Hv j. destruct em_pos as (P1 & P2 & P3 & _). pose proof HS as (Ha & _). pose proof (wf_len embed HE) as LE.
  destruct (em_velem c v Hc Hv) as (_ & V1 & _ & V3).
  assert (Hvs : zn (t_shape embed) axis = vs) by apply HM.
  assert (Hj : 0 <= j < sg_n embed axis).
  { unfold sg_n. rewrite zn_gridZ by lia. rewrite Hvs. unfold j. split; [apply Z.div_pos; lia|].
    apply Z.lt_le_trans with (c / eb + 1); [lia|]. apply Z.div_le_lower_bound; [lia|]. pose proof (Z.mul_div_le c eb P1). lia. }
  assert (Hq : forall a, 0 <= a < ntiles index -> let i := sg_out embed index axis (a, j) in
    0 <= i < ntiles embed /\ em_a i = a /\ em_j i = j).
  { intros a Ha'. cbv zeta. pose proof (sg_bound embed index axis HE HI HS a j Ha' Hj) as Hi. split; [assumption|].
    destruct (em_tile _ Hi) as (A1 & A2 & A3 & _). apply (sg_out_inj embed index axis HE HI HS _ _ _ _ A1 A2 Ha' Hj A3). }
  assert (Hc' : 0 <= c mod eb < eb) by (apply Z.mod_pos_bound; assumption).
  assert (DMc : c = j * eb + c mod eb) by (unfold j; rewrite (Z.mul_comm _ eb); apply Z.div_mod; lia).
  assert (Hall : forall a, 0 <= a < ntiles index -> let i := sg_out embed index axis (a, j) in
    eb_out (i, c / vb - j * (eb / vb)) = c / vb /\
    0 <= c / vb - j * (eb / vb) < em_per i /\
    0 <= c mod eb < em_k i /\ (c / vb - j * (eb / vb)) * vb + c mod vb = c mod eb).
  { intros a Ha'. cbv zeta. destruct (Hq a Ha') as (Hi & Ea & Ej). cbv zeta in *. set (i := sg_out embed index axis (a, j)) in *.
    destruct (em_start_eq i Hi) as (Es & Eq & Em). rewrite Ej in Es, Em. destruct (em_k_eq i Hi) as (Ek & _). rewrite Ej in Ek.
    assert (Hl : 0 <= c mod eb < em_k i) by lia.
    destruct (em_cover i (c mod eb) Hi Hl) as (C1 & C2 & C3 & C4). rewrite Ej in C3, C4. rewrite <- DMc in C3, C4.
    assert (Et : c / vb - j * (eb / vb) = c mod eb / vb) by (rewrite C3, Es; ring).
    rewrite Et. split; [unfold eb_out; cbn [fst snd]; rewrite C3; reflexivity|]. split; [assumption|]. split; [assumption|]. rewrite C4. ring. }
  split; [assumption|]. split.
  - apply NoDup_Permutation.
    + apply NoDup_filter, eb_xs_NoDup.
    + apply NoDup_map_inj; [|apply NoDup_zrange]. intros a a' Ia Ia' E. apply zrange_In in Ia. apply zrange_In in Ia'. inversion E as [E'].
      apply (sg_out_inj embed index axis HE HI HS a j a' j); assumption.
    + intros [i t]. rewrite filter_In, eb_xs_In, in_map_iff. cbn [fst snd]. rewrite V1. split.
      * intros [[Hi Ht] E]. apply Z.eqb_eq in E. exists (em_a i). destruct (em_tile i Hi) as (A1 & A2 & A3 & _).
        destruct (em_start_eq i Hi) as (Es & Eq & Em). destruct (em_range i t Hi Ht) as (R1 & R2 & R3 & R4).
        unfold eb_out in E. cbn [fst snd] in E.
        assert (Ej : em_j i = j).
        { unfold j. destruct (em_k_eq i Hi) as (Ek & _).
          assert (B1 : t * vb <= em_k i - 1) by lia.
          pose proof (Z.mul_div_le c vb P2) as M1. pose proof (Z.mul_succ_div_gt c vb P2) as M2. rewrite <- E in M1, M2.
          assert (B2 : t < eb / vb).
          { assert (t * vb < eb / vb * vb) by lia. nia. }
          apply (Z.div_unique _ _ _ (c - em_j i * eb)); [left|lia].
          assert ((em_start i + t) * vb = em_j i * eb + t * vb) by (rewrite Z.mul_add_distr_r, Em; reflexivity).
          split; [nia|]. assert ((t + 1) * vb <= eb / vb * vb) by nia. nia. }
        rewrite <- Ej. rewrite A3. split; [|apply zrange_In; assumption]. f_equal. rewrite <- E, Es. ring.
      * intros (a & E & Ia). apply zrange_In in Ia. inversion E; subst i t. destruct (Hq a Ia) as (Hi & _). destruct (Hall a Ia) as (X1 & X2 & _).
        cbv zeta in *. split; [split; assumption|]. apply Z.eqb_eq. exact X1.
  - intros a Ia. cbv zeta. destruct (Hq a Ia) as (Q1 & Q2 & Q3). destruct (Hall a Ia) as (X1 & X2 & X3 & X4). cbv zeta in *. auto 10.
Qed.
End Geo.
End E.
