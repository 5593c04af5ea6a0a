(** * mask_scalar, subtract_indexed_outputs and total_sum_accum at the tensor level *)
From Verif Require Import Base Spec Geometry Traits TraitsProofs Runtime Ops TensorSem ElemGeneric OneOut
  KernelsElem ElemOps Axis AccRuns Loops SliceOps SliceGeo SliceProofs SplitGeo Sequence KeepRuns LossOps LossProofs.

(** The mask has the leading dimensions and tile sizes of the tensor; the last [b] dimensions
    are the batch. *)
Definition mask_match (mask A : tensor) (b : Z) : Prop :=
  0 <= b <= zlen (t_shape A) /\
  t_shape mask = firstn (Z.to_nat (zlen (t_shape A) - b)) (t_shape A) /\
  t_base mask = firstn (Z.to_nat (zlen (t_shape A) - b)) (t_base A).

Lemma zlen_firstn {A} (l : list A) k : 0 <= k <= zlen l -> zlen (firstn (Z.to_nat k) l) = k.
Proof. intros H. unfold zlen in *. rewrite firstn_length. lia. Qed.
Lemma zn_firstn {A} `{Dflt A} (l : list A) k i : 0 <= i < k -> k <= zlen l -> zn (firstn (Z.to_nat k) l) i = zn l i.
Proof.
  intros Hi Hk. rewrite <- (firstn_skipn (Z.to_nat k) l) at 2. rewrite zn_app1; [reflexivity|]. rewrite zlen_firstn; lia.
Qed.
Lemma firstn_eq (l k : list Z) n : 0 <= n <= zlen l ->
  (k = firstn (Z.to_nat n) l <-> zlen k = n /\ forall i, 0 <= i < n -> zn l i = zn k i).
Proof.
  intros Hn. split.
  - intros ->. split; [apply zlen_firstn; assumption|]. intros i Hi. rewrite zn_firstn by lia. reflexivity.
  - intros [H1 H2]. apply list_ext; [rewrite zlen_firstn by assumption; assumption|].
    intros i Hi. rewrite zn_firstn by lia. symmetry. apply H2. lia.
Qed.

Section M.
Context {T : Type} {O : Ops T}.
Local Notation vec := (list T).
Variables (mask A : tensor) (b : Z).
Hypothesis (HM : wft mask) (HA : wft A).

Lemma mask_check_checks : 0 <= b -> checks (mask_match mask A b) (mask_check mask A b).
Proof.
  intros Hb. unfold mask_check. rewrite !t_ndim_eq by assumption. pose proof (wf_len A HA) as LA. pose proof (wf_len mask HM) as LM.
  pose proof (zlen_nonneg (t_shape mask)).
  apply (checks_iff (zlen (t_shape mask) = zlen (t_shape A) - b /\ (forall i, 0 <= i < zlen (t_shape A) - b ->
     zn (t_shape A) i = zn (t_shape mask) i /\ zn (t_base A) i = zn (t_base mask) i))).
  { split.
    - intros (E & H'). assert (Hr : 0 <= zlen (t_shape A) - b <= zlen (t_shape A)) by lia. split; [lia|]. split.
      + apply firstn_eq; [assumption|]. split; [assumption|]. intros i Hi. apply H'. assumption.
      + apply firstn_eq; [lia|]. split; [lia|]. intros i Hi. apply H'. assumption.
    - intros (Hr & E1 & E2). apply firstn_eq in E1; [|lia]. apply firstn_eq in E2; [|lia].
      split; [apply E1|]. intros i Hi. split; [apply E1|apply E2]; assumption. }
  apply checks_eq. intros E. apply checks_for. intros i Hi. apply check_dim_checks; [assumption|assumption|lia|lia].
Qed.

(** Negative [b]: the check reads shapes out of bounds. *)
Definition mk_i (i : Z) : Z := i mod ntiles mask.

Lemma mask_split : mask_match mask A b ->
  exists s2 b2, t_shape A = t_shape mask ++ s2 /\ t_base A = t_base mask ++ b2 /\ geo (t_shape mask) (t_base mask) /\
    geo s2 b2 /\ zlen (t_shape mask) = zlen (t_shape A) - b.
Proof.
  intros (Hr & E1 & E2). pose proof (wf_len A HA) as LA.
  exists (skipn (Z.to_nat (zlen (t_shape A) - b)) (t_shape A)), (skipn (Z.to_nat (zlen (t_shape A) - b)) (t_base A)).
  rewrite E1, E2, !firstn_skipn. split; [reflexivity|]. split; [reflexivity|].
  rewrite zlen_firstn by lia. 
  cut (geo (firstn (Z.to_nat (zlen (t_shape A) - b)) (t_shape A)) (firstn (Z.to_nat (zlen (t_shape A) - b)) (t_base A)) /\
       geo (skipn (Z.to_nat (zlen (t_shape A) - b)) (t_shape A)) (skipn (Z.to_nat (zlen (t_shape A) - b)) (t_base A))); [tauto|].
  apply geo_app_inv.
  - rewrite !firstn_length. unfold zlen in LA. lia.
  - rewrite !firstn_skipn. apply wft_geo. assumption.
Qed.

Lemma mask_tile i : mask_match mask A b -> 0 <= i < ntiles A ->
  0 <= mk_i i < ntiles mask /\
  exists nc, 0 < nc /\ tsz A i = tsz mask (mk_i i) * nc /\
    firstn (Z.to_nat (zlen (t_shape mask))) (unoff (gridZ (t_shape A) (t_base A)) i) = unoff (gridZ (t_shape mask) (t_base mask)) (mk_i i) /\
    rd (tt_ms (tt_of (tsh A i))) (zlen (t_shape A) - b) = Ok (tsz mask (mk_i i), nc).
Proof.
  intros Hm Hi. destruct (mask_split Hm) as (s2 & b2 & E1 & E2 & G1 & G2 & EL).
  pose proof (ntiles_pos mask HM) as Hn.
  assert (Hmk : 0 <= mk_i i < ntiles mask) by (apply Z.mod_pos_bound; assumption).
  split; [assumption|].
  assert (Hq : 0 <= i / ntiles mask < rn s2 b2).
  { split; [apply Z.div_pos; lia|]. apply Z.div_lt_upper_bound; [assumption|].
    unfold ntiles in Hi at 1. rewrite E1, E2 in Hi. fold (rn (t_shape mask ++ s2) (t_base mask ++ b2)) in Hi.
    rewrite rn_app in Hi by assumption. apply Hi. }
  assert (Ei : i = mk_i i + rn (t_shape mask) (t_base mask) * (i / ntiles mask)).
  { unfold mk_i. pose proof (Z.div_mod i (ntiles mask)). unfold rn. fold (ntiles mask). lia. }
  assert (Hsh : tsh A i = tsh mask (mk_i i) ++ rsh s2 b2 (i / ntiles mask)).
  { unfold tsh at 1. rewrite E1, E2. rewrite Ei at 1. apply rsh_app; assumption. }
  exists (rsz s2 b2 (i / ntiles mask)). split; [apply rsz_pos; assumption|]. split; [|split].
  - unfold tsz. rewrite Hsh. rewrite prodZ_app. reflexivity.
  - rewrite E1, E2. rewrite Ei at 1. rewrite unoff_split by assumption. apply firstn_app_len.
    apply zlen_nat. rewrite zlen_unoff, zlen_gridZ by (apply wf_len; assumption). rewrite Z2Nat.id by apply zlen_nonneg. reflexivity.
  - rewrite Hsh. unfold tsz. apply rd_ms_app. rewrite zlen_tsh by assumption. lia.
Qed.

Lemma mask_geo idx : mask_match mask A b -> inb (t_shape A) idx ->
  let i1 := firstn (Z.to_nat (zlen (t_shape A) - b)) idx in
  inb (t_shape mask) i1 /\ mk_i (etile A idx) = etile mask i1 /\
  forall nc, 0 < nc -> tsz A (etile A idx) = tsz mask (etile mask i1) * nc ->
    cz [tsz mask (etile mask i1); nc] 0 (eoff A idx) = eoff mask i1.
Proof.
  intros Hm Hi. destruct (mask_split Hm) as (s2 & b2 & E1 & E2 & G1 & G2 & EL). cbv zeta.
  rewrite E1 in Hi. destruct (inb_app_inv_l (t_shape mask) s2 idx Hi) as (i1 & i2 & -> & H1 & H2).
  assert (L1 : zlen i1 = zlen (t_shape mask)) by (symmetry; apply inb_zlen; assumption).
  rewrite firstn_app_len by (apply zlen_nat; rewrite Z2Nat.id by (rewrite <- EL; apply zlen_nonneg); lia).
  split; [assumption|].
  assert (Et : etile A (i1 ++ i2) = etile mask i1 + ntiles mask * rtl s2 b2 i2).
  { unfold etile at 1. rewrite E1, E2. apply rtl_app; assumption. }
  pose proof (etile_bound mask i1 HM H1) as Hb1.
  split.
  - unfold mk_i. rewrite Et, Z.mul_comm, Z.mod_add by lia. apply Z.mod_small. assumption.
  - intros nc Hnc _. pose proof (eoff_bound mask i1 HM H1) as Ho.
    unfold eoff at 1. rewrite E1, E2.
    fold (rof (t_shape mask ++ s2) (t_base mask ++ b2) (i1 ++ i2)). rewrite rof_app by assumption.
    unfold cz. cbn [unoff]. rewrite zn_cons0. change (rsz (t_shape mask) (t_base mask) (rtl (t_shape mask) (t_base mask) i1)) with (tsz mask (etile mask i1)).
    rewrite Z.mul_comm, Z.mod_add by lia. apply Z.mod_small. assumption.
Qed.

Lemma mask_submits (val : T) : mask_match mask A b -> exists nc, (forall i, 0 <= i < ntiles A -> 0 < nc i /\ tsz A i = tsz mask (mk_i i) * nc i) /\
  mask_scalar_async mask val A b = Ok (map (fun i =>
    mask_scalar_submit (tsz mask (mk_i i)) (nc i) (th mask (mk_i i)) val (th A i)) (zrange (ntiles A))).
Proof.
  intros Hm. exists (fun i => tsz A i / tsz mask (mk_i i)).
  assert (Hnc : forall i nc, 0 <= i < ntiles A -> tsz A i = tsz mask (mk_i i) * nc -> tsz A i / tsz mask (mk_i i) = nc).
  { intros i nc Hi E. rewrite E, Z.mul_comm. apply Z.div_mul. pose proof (tsz_pos mask (mk_i i) HM (proj1 (mask_tile i Hm Hi))). lia. }
  split.
  - intros i Hi. destruct (mask_tile i Hm Hi) as (_ & nc & H0 & E & _). rewrite (Hnc i nc Hi E). auto.
  - unfold mask_scalar_async. rewrite (checks_true _ _ (mask_check_checks (proj1 (proj1 Hm)))) by assumption. bnd.
    rewrite t_ntiles_eq by assumption. apply for_tasks. intros i acc Hi.
    destruct (mask_tile i Hm Hi) as (Hk & nc & H0 & E & Eix & Erd).
    rewrite get_tile_handle_ok by assumption. bnd. rewrite t_grid_eq by assumption.
    rewrite linear_to_index_ok by (assumption || apply wf_pg; assumption). bnd. rewrite !t_ndim_eq by assumption.
    assert (LM : zlen (t_shape mask) <= zlen (t_shape A)).
    { destruct (mask_split Hm) as (s2 & _ & _ & _ & _ & _ & EL). destruct Hm as [? _]. lia. }
    pose proof (zlen_nonneg (t_shape mask)) as LM0. pose proof (zlen_nonneg (t_shape A)) as LA0. pose proof (wf_len A HA) as WA.
    assert (LG : zlen (unoff (gridZ (t_shape A) (t_base A)) i) = zlen (t_shape A)) by (rewrite zlen_unoff, zlen_gridZ by assumption; reflexivity).
    destruct (fill_lo (unoff (gridZ (t_shape A) (t_base A)) i) (zlen (t_shape mask)) (zrep (zlen (t_shape mask)) 0%Z)) as (v & -> & Lv & Zv).
    { lia. } { rewrite zlen_zrep by assumption. lia. }
    bnd. rewrite zlen_zrep in Lv by assumption.
    assert (Ev : v = unoff (gridZ (t_shape mask) (t_base mask)) (mk_i i)).
    { rewrite <- Eix. apply list_ext; [rewrite zlen_firstn by lia; assumption|]. rewrite Lv. intros j Hj. rewrite Zv by lia.
      rewrite (proj2 (Z.ltb_lt _ _)) by lia. rewrite zn_firstn by lia. reflexivity. }
    rewrite Ev. rewrite get_tile_handle_idx_ok; [|assumption|apply unoff_inb; [apply wf_pg; assumption|assumption]].
    rewrite off_unoff by (assumption || apply wf_pg; assumption). bnd.
    rewrite get_tile_traits_ok by assumption. bnd. rewrite Erd. bnd. rewrite (Hnc i nc Hi E). reflexivity.
Qed.

Theorem mask_scalar_runs (val : T) s : mask_match mask A b -> disj mask A -> stored KB s mask -> stored KF s A ->
  runs (mask_scalar_async mask val A b) s (fun s' =>
    (forall idx, inb (t_shape A) idx ->
       elem s' A idx = if belem s mask (firstn (Z.to_nat (zlen (t_shape A) - b)) idx) then elem s A idx else val) /\
    frame [A] s s').
Proof.
  intros Hm Hd S1 S2. destruct (mask_submits val Hm) as (nc & Hnc & Hr).
  eapply runs_weaken; [apply (acc_elem A (zrange (ntiles A)) (fun i => i) (fun _ => MRW)
    (fun _ => []) (fun i => [th mask (mk_i i)]) (fun _ => [])
    (fun i => mask_scalar_cpu (tsz mask (mk_i i)) (nc i) val)
    (fun i _ b2 o v => if zn (bl (hd (BF []) b2)) (cz [tsz mask (mk_i i); nc i] 0 o) then v else val))|].
  - assumption.
  - assumption.
  - exact Hr.
  - intros i Hi. apply zrange_In in Hi. assumption.
  - auto.
  - intros i h Hi [[]|[[<-|[]]|[]]]. apply zrange_In in Hi. apply disj_notin; [assumption|assumption|]. apply (mask_tile i Hm Hi).
  - discriminate.
  - intros i st d sc Hi Ht Hl Hsc. apply zrange_In in Hi. destruct sc; [|discriminate]. exists []. split; [|reflexivity].
    destruct (mask_tile i Hm Hi) as (Hk & _). destruct (Hnc i Hi) as (Hn0 & En).
    destruct (ty_BB (st (th mask (mk_i i))) (tsz mask (mk_i i))) as (l & E & Hll).
    { rewrite Ht. apply S1. assumption. }
    cbn [map app]. rewrite E. cbn [mask_scalar_cpu app].
    rewrite k_mask_scalar_ok by (congruence || assumption || apply tsz_pos; assumption). bnd. rewrite En. reflexivity.
  - intros s' _ [H1 H2]. split; [|assumption]. intros idx Hi. rewrite H1 by assumption.
    pose proof (etile_bound A idx HA Hi) as Hb.
    rewrite (filter_single _ _ (etile A idx)); [|apply NoDup_zrange|apply zrange_In; assumption|apply Z.eqb_refl|].
    2:{ intros y _ E. apply Z.eqb_eq in E. assumption. }
    cbn [fold_left map hd]. destruct (mask_geo idx Hm Hi) as (Hi1 & Em & Ho). cbv zeta in *.
    destruct (Hnc (etile A idx) Hb) as (Hn0 & En). rewrite Em in *. unfold belem. rewrite Ho by assumption. reflexivity.
Qed.
End M.

(** [dst] has one more leading dimension than [labels], held in a single tile. *)
Definition labels_match (labels dst : tensor) : Prop :=
  exists n, t_shape dst = n :: t_shape labels /\ t_base dst = n :: t_base labels.

Section Lab.
Context {T : Type} {O : Ops T}.
Local Notation vec := (list T).
Variables (labels dst : tensor).
Hypothesis (HL : wft labels) (HD : wft dst).

Lemma shift_eq (l k : list Z) : (forall i, 0 <= i < zlen k -> zn k i = zn l (i + 1)) -> zlen l = zlen k + 1 -> l = zn l 0 :: k.
Proof.
  intros H E. pose proof (zlen_nonneg k). apply list_ext; [rewrite zlen_cons; lia|]. intros i Hi. destruct (Z.eq_dec i 0) as [->|Hne]; [reflexivity|].
  rewrite zn_consS by lia. rewrite H by lia. f_equal. lia.
Qed.

Lemma labels_check_checks : checks (labels_match labels dst) (labels_check labels dst).
Proof.
  unfold labels_check. rewrite !t_ndim_eq by assumption. pose proof (wf_len labels HL) as LL. pose proof (wf_len dst HD) as LD.
  pose proof (zlen_nonneg (t_shape labels)).
  apply (checks_iff (zlen (t_shape labels) = zlen (t_shape dst) - 1 /\
     (forall i, 0 <= i < zlen (t_shape labels) -> zn (t_shape labels) i = zn (t_shape dst) (i + 1) /\ zn (t_base labels) i = zn (t_base dst) (i + 1)) /\
     zn (t_shape dst) 0 = zn (t_base dst) 0 /\ True)).
  { split.
    - intros (E & H' & E0 & _). exists (zn (t_shape dst) 0). split.
      + apply shift_eq; [|lia]. intros i Hi. apply H'. lia.
      + rewrite E0. apply shift_eq; [|lia]. intros i Hi. apply H'. lia.
    - intros (n & E1 & E2). rewrite E1, E2. rewrite zlen_cons, !zn_cons0. split; [lia|]. split; [|auto].
      intros i Hi. rewrite !zn_consS by lia. rewrite Z.add_simpl_r. auto. }
  apply checks_eq. intros E. apply checks_seq.
  - apply checks_for. intros i Hi. apply check_dim_checks; [assumption|assumption|lia|lia].
  - intros _. rewrite !rd_ok' by lia. apply checks_eq. intros _. apply checks_ok.
Qed.

Section Geo.
Hypothesis (HM : labels_match labels dst).
Lemma lab_n : 0 < zn (t_shape dst) 0 /\ t_shape dst = zn (t_shape dst) 0 :: t_shape labels /\ t_base dst = zn (t_shape dst) 0 :: t_base labels.
Proof.
  destruct HM as (n & E1 & E2). pose proof (wf_ps dst HD) as P. rewrite E1 in *. rewrite zn_cons0.
  inversion P; subst. auto.
Qed.
Lemma lab_grid : gridZ (t_shape dst) (t_base dst) = 1 :: gridZ (t_shape labels) (t_base labels).
Proof.
  destruct lab_n as (Hn & E1 & E2). set (n := zn (t_shape dst) 0) in *. rewrite E1, E2. unfold gridZ. cbn [map2]. f_equal.
  symmetry. apply (Z.div_unique _ _ _ (n - 1)); lia.
Qed.
Lemma lab_nt : ntiles dst = ntiles labels.
Proof. unfold ntiles. rewrite lab_grid. cbn [prodZ]. lia. Qed.
Lemma lab_tsh i : tsh dst i = zn (t_shape dst) 0 :: tsh labels i.
Proof.
  destruct lab_n as (Hn & E1 & E2). unfold tsh. rewrite lab_grid. set (n := zn (t_shape dst) 0) in *. rewrite E1, E2. cbn [unoff tshape].
  rewrite Z.mod_1_r, Z.div_1_r. f_equal. lia.
Qed.
Lemma lab_tsz i : tsz dst i = zn (t_shape dst) 0 * tsz labels i.
Proof. unfold tsz. rewrite lab_tsh. reflexivity. Qed.
Lemma lab_inb l idx : inb (t_shape dst) (l :: idx) <-> 0 <= l < zn (t_shape dst) 0 /\ inb (t_shape labels) idx.
Proof. destruct lab_n as (Hn & E1 & E2). rewrite E1 at 1. apply inb_cons. Qed.
Lemma lab_etile l idx : 0 <= l < zn (t_shape dst) 0 -> etile dst (l :: idx) = etile labels idx.
Proof.
  intros Hl. destruct lab_n as (Hn & E1 & E2). unfold etile. rewrite lab_grid, E2. unfold tile_of. cbn [map2 off].
  rewrite Z.div_small by assumption. lia.
Qed.
Lemma lab_eoff l idx : inb (t_shape labels) idx -> 0 <= l < zn (t_shape dst) 0 -> eoff dst (l :: idx) = l + zn (t_shape dst) 0 * eoff labels idx.
Proof.
  intros Hi Hl. destruct lab_n as (Hn & E1 & E2). set (n := zn (t_shape dst) 0) in *. unfold eoff. rewrite E1, E2. unfold tile_of, in_tile. cbn [map2 tshape off].
  rewrite Z.div_small, Z.mod_small by assumption. f_equal. f_equal. lia.
Qed.

(** Labels of a tile are within the range of valid labels. *)
Lemma lab_range s n i p : (forall idx, inb (t_shape labels) idx -> 0 <= ielem (T := T) s labels idx < n) ->
  0 <= i < ntiles labels -> 0 <= p < tsz labels i -> 0 <= zn (il (s (th labels i))) p < n.
Proof.
  intros H Hi Hp. destruct (eidx_spec labels i p HL Hi Hp) as (H1 & H2 & H3). specialize (H _ H1). unfold ielem in H.
  rewrite H2, H3 in H. assumption.
Qed.
End Geo.

Lemma subtract_submits (val : T) : labels_match labels dst ->
  subtract_indexed_outputs_async val labels dst = Ok (map (fun i =>
    subtract_indexed_outputs_submit (zn (t_shape dst) 0) (tsz labels i) val (th labels i) (th dst i)) (zrange (ntiles dst))).
Proof.
  intros Hm. unfold subtract_indexed_outputs_async. rewrite (checks_true _ _ labels_check_checks) by assumption. bnd.
  rewrite t_ntiles_eq by assumption. apply for_tasks. intros i acc Hi.
  assert (Hi' : 0 <= i < ntiles labels) by (rewrite <- lab_nt by assumption; assumption).
  rewrite !get_tile_handle_ok, get_tile_traits_ok by assumption. bnd. bnd. bnd.
  destruct (lab_n Hm) as (_ & E & _).
  rewrite rd_ok' by (rewrite E, zlen_cons; pose proof (zlen_nonneg (t_shape labels)); lia). reflexivity.
Qed.

Theorem subtract_runs (val : T) s : labels_match labels dst -> disj labels dst -> stored KI s labels -> stored KF s dst ->
  (forall idx, inb (t_shape labels) idx -> 0 <= ielem s labels idx < zn (t_shape dst) 0) ->
  runs_keep [labels] (subtract_indexed_outputs_async val labels dst) s (fun s' =>
    (forall l idx, inb (t_shape dst) (l :: idx) ->
       elem s' dst (l :: idx) = if ielem s labels idx =? l then o_sub (elem s dst (l :: idx)) val else elem s dst (l :: idx)) /\
    frame [dst] s s').
Proof.
  intros Hm Hd S1 S2 Hlab. set (n := zn (t_shape dst) 0).
  destruct (lab_n Hm) as (Hn & _). fold n in Hn.
  eapply keep_weaken; [apply (kacc_elem [labels] dst (zrange (ntiles dst)) (fun i => i) (fun _ => MRW)
    (fun i => [th labels i]) (fun _ => []) (fun _ => [])
    (fun i => subtract_indexed_outputs_cpu n (tsz labels i) val)
    (fun i b1 _ o v => if zn (il (hd (BF []) b1)) (cz [n; tsz labels i] 1 o) =? cz [n; tsz labels i] 0 o then o_sub v val else v))|].
  - assumption.
  - assumption.
  - exact (subtract_submits val Hm).
  - intros i Hi. apply zrange_In in Hi. assumption.
  - auto.
  - intros i h Hi [[<-|[]]|[[]|[]]]. apply zrange_In in Hi. apply disj_notin; [assumption|assumption|]. rewrite <- lab_nt; assumption.
  - intros k [<-|[]]. apply disj_sym. assumption.
  - discriminate.
  - intros i st d sc Hi Ht Hl Hsc. apply zrange_In in Hi. destruct sc; [|discriminate]. exists []. split; [|reflexivity].
    assert (Hi' : 0 <= i < ntiles labels) by (rewrite <- lab_nt by assumption; assumption).
    assert (Es : st (th labels i) = s (th labels i)).
    { apply (proj2 Ht labels); [left; reflexivity|apply th_In; assumption]. }
    destruct (ty_BI (s (th labels i)) (tsz labels i)) as (l & E & Hll); [apply S1; assumption|].
    cbn [map app]. rewrite Es, E. cbn [subtract_indexed_outputs_cpu app].
    rewrite lab_tsz in * by assumption. fold n in Hl |- *.
    rewrite k_subtract_ok; [bnd; reflexivity|assumption|apply tsz_pos; assumption|assumption|assumption|].
    intros p Hp. pose proof (lab_range s n i p Hlab Hi' Hp) as Q. rewrite E in Q. assumption.
  - intros s' _ [H1 H2]. split; [|assumption]. intros l idx Hi. rewrite H1 by assumption.
    pose proof (etile_bound dst _ HD Hi) as Hb. apply lab_inb in Hi; [|assumption]. destruct Hi as [Hl Hi].
    rewrite (filter_single _ _ (etile dst (l :: idx))); [|apply NoDup_zrange|apply zrange_In; assumption|apply Z.eqb_refl|].
    2:{ intros y _ E. apply Z.eqb_eq in E. assumption. }
    cbn [fold_left map hd]. rewrite lab_eoff, lab_etile by assumption. fold n.
    pose proof (eoff_bound labels idx HL Hi) as Ho.
    destruct (cz2 n (tsz labels (etile labels idx)) l (eoff labels idx) Hl Ho) as (-> & -> & _). reflexivity.
Qed.
End Lab.
