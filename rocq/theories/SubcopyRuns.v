(** * copy_intersection: the submitted tasks and their result *)
From Verif Require Import Base Spec Geometry Traits TraitsProofs Axis Loops Runtime Ops TensorSem ElemOps ElemGeneric OneOut AccRuns
  Sequence Serial NdRuns GemmRuns SubcopyOps SubcopyKernel SubcopyLoops.

Lemma filter_flat_map {A B} (f : B -> bool) (g : A -> list B) l :
  filter f (flat_map g l) = flat_map (fun a => filter f (g a)) l.
Proof. induction l; cbn; [reflexivity|]. rewrite filter_app', IHl. reflexivity. Qed.
Lemma flat_map_one {A B} (g : A -> list B) l x : NoDup l -> In x l -> (forall y, In y l -> y <> x -> g y = []) -> flat_map g l = g x.
Proof.
  induction 1 as [|y l Hy Hn IH]; intros Hi Hg; [contradiction|]. cbn. destruct Hi as [->|Hi].
  - replace (flat_map g l) with (@nil B); [apply app_nil_r|]. symmetry. clear IH. induction l as [|z l IHl]; [reflexivity|].
    cbn. rewrite (Hg z); [|right; left; reflexivity|intros ->; apply Hy; left; reflexivity]. apply IHl.
    + intros Hz; apply Hy; right; assumption.
    + inversion Hn; assumption.
    + intros w [->|Hw] Hne; [apply Hg; [left; reflexivity|assumption]|]. apply Hg; [right; right; assumption|assumption].
  - rewrite (Hg y); [|left; reflexivity|intros ->; contradiction]. apply IH; [assumption|].
    intros z Hz. apply Hg. right. assumption.
Qed.
Lemma zrange_split n k : 0 <= k < n -> zrange n = zrange k ++ k :: map (fun l => k + 1 + l) (zrange (n - k - 1)).
Proof.
  intros Hk. replace n with ((k + 1) + (n - k - 1)) at 1 by lia. rewrite zrange_add, zrange_succ, <- app_assoc by lia. reflexivity.
Qed.

Section Ci.
Context {T : Type} {DT : Dflt T}.
Variables (src dst : tensor) (so do_ : list Z) (scratch : handle).
Hypothesis (Hs : wft src) (Hd : wft dst).
Notation n := (zlen (t_shape src)).
Notation gS := (gridZ (t_shape src) (t_base src)).
Notation gD := (gridZ (t_shape dst) (t_base dst)).
Hypothesis (Hn : zlen (t_shape dst) = n) (Lso : zlen so = n) (Ldo : zlen do_ = n) (Npos : 0 < n).
Hypothesis (Hmeet : forallb (ev_meet src dst so do_) (zrange n) = true).

Notation SS := (ztab n (ev_ss so do_)).
Notation DS := (ztab n (ev_ds so do_)).
Notation CS := (ztab n (ev_cs src dst so do_)).
Notation TB := (ztab n (ev_tb dst so do_)).
Notation TE := (ztab n (ev_te src dst so do_)).
Definition ci_cnt : list Z := ztab n (fun k => ev_te src dst so do_ k - ev_tb dst so do_ k).
Definition ci_dti (i : Z) : list Z := map2 Z.add TB (unoff ci_cnt i).
Definition ci_sb (i : Z) : list Z := ztab n (ev_sb src dst so do_ (ci_dti i)).
Definition ci_se (i : Z) : list Z := ztab n (ev_se src dst so do_ (ci_dti i)).
Definition ci_cnt2 (i : Z) : list Z := ztab n (fun k => ev_se src dst so do_ (ci_dti i) k - ev_sb src dst so do_ (ci_dti i) k).
Definition ci_sti (i j : Z) : list Z := map2 Z.add (ci_sb i) (unoff (ci_cnt2 i) j).
Definition ci_sts (i j : Z) : list Z := ztab n (ev_sts src dst so do_ (ci_dti i) (ci_sti i j)).
Definition ci_dts (i j : Z) : list Z := ztab n (ev_dts src dst so do_ (ci_dti i) (ci_sti i j)).
Definition ci_cts (i j : Z) : list Z := ztab n (ev_cts src dst so do_ (ci_dti i) (ci_sti i j)).
Definition ci_dt (i : Z) : Z := off gD (ci_dti i).
Definition ci_st (i j : Z) : Z := off gS (ci_sti i j).
Definition ci_md (i j : Z) : mode := if j =? 0 then (if existsb (ev_bad src dst so do_ (ci_dti i) (tsh dst (ci_dt i))) (zrange n) then MRW else MW) else MRW.
Definition ci_special (i : Z) : bool :=
  (prodZ (ci_cnt2 i) =? 1) && is_W (ci_md i 0) && list_eqb Z.eqb (ci_cts i 0) (tsh src (ci_st i 0)).
Definition ci_body (x : Z * Z) : list (buf T) -> res (list (buf T)) :=
  if ci_special (fst x) then copy_cpu else
  subcopy_cpu ScOwn n (ci_sts (fst x) (snd x)) (strides (tsh src (ci_st (fst x) (snd x)))) (ci_cts (fst x) (snd x))
    (ci_dts (fst x) (snd x)) (strides (tsh dst (ci_dt (fst x)))).
Definition ci_scr (x : Z * Z) : list handle := if ci_special (fst x) then [] else [scratch].
Definition ci_task (x : Z * Z) : task T :=
  mkTask (mk_acc [th src (ci_st (fst x) (snd x))] (th dst (ci_dt (fst x))) (ci_md (fst x) (snd x)) [] (ci_scr x)) (ci_body x).
Definition ci_xs : list (Z * Z) := flat_map (fun i => map (pair i) (zrange (prodZ (ci_cnt2 i)))) (zrange (prodZ ci_cnt)).

Local Lemma Nn : 0 <= n. Proof. lia. Qed.
Lemma evd k : 0 <= k < n ->
  0 <= ev_ss so do_ k /\ 0 <= ev_ds so do_ k /\ 0 < ev_cs src dst so do_ k /\ ev_ss so do_ k + ev_cs src dst so do_ k <= zn (t_shape src) k /\
  ev_ds so do_ k + ev_cs src dst so do_ k <= zn (t_shape dst) k /\ 0 < zn (t_base src) k /\ 0 < zn (t_base dst) k.
Proof. apply (ev_dim' src dst so do_ Hs Hd Hn Hmeet). Qed.
Lemma evt k : 0 <= k < n -> 0 <= ev_tb dst so do_ k /\ ev_tb dst so do_ k < ev_te src dst so do_ k /\
  ev_te src dst so do_ k <= (zn (t_shape dst) k + zn (t_base dst) k - 1) / zn (t_base dst) k.
Proof. intros Hk. apply (d_t_range _ _ _ _ _ _ _ (evd k Hk)). Qed.
Lemma cnt_pos : pos ci_cnt.
Proof.
  apply pos_zn. unfold ci_cnt. rewrite zlen_ztab by lia. intros k Hk. rewrite zn_ztab by lia. pose proof (evt k Hk). lia.
Qed.
Lemma zlen_cnt : zlen ci_cnt = n. Proof. unfold ci_cnt. rewrite zlen_ztab; lia. Qed.
Lemma zlen_dti i : zlen (ci_dti i) = n.
Proof. unfold ci_dti. rewrite zlen_map2; rewrite ?zlen_unoff, ?zlen_cnt, zlen_ztab; lia. Qed.
Lemma zn_dti i k : 0 <= k < n -> zn (ci_dti i) k = ev_tb dst so do_ k + zn (unoff ci_cnt i) k.
Proof. intros Hk. unfold ci_dti. rewrite zn_map2 by (rewrite ?zlen_unoff, ?zlen_cnt, ?zlen_ztab; lia). rewrite zn_ztab by lia. reflexivity. Qed.
Lemma dti_range i k : 0 <= i < prodZ ci_cnt -> 0 <= k < n -> ev_tb dst so do_ k <= zn (ci_dti i) k < ev_te src dst so do_ k.
Proof.
  intros Hi Hk. rewrite zn_dti by assumption.
  destruct (proj1 (TraitsProofs.inb_zn _ _) (unoff_inb ci_cnt i cnt_pos Hi)) as [_ H].
  specialize (H k). rewrite zlen_cnt in H. specialize (H Hk). unfold ci_cnt at 3 in H. rewrite zn_ztab in H by lia. lia.
Qed.
Lemma zlen_gD : zlen gD = n. Proof. rewrite zlen_gridZ; [lia|apply (wf_len _ Hd)]. Qed.
Lemma zlen_gS : zlen gS = n. Proof. rewrite zlen_gridZ; [lia|apply (wf_len _ Hs)]. Qed.
Lemma zn_gD k : 0 <= k < n -> zn gD k = (zn (t_shape dst) k + zn (t_base dst) k - 1) / zn (t_base dst) k.
Proof. intros Hk. unfold gridZ. rewrite zn_map2; [reflexivity|rewrite (wf_len _ Hd); reflexivity|lia]. Qed.
Lemma zn_gS k : 0 <= k < n -> zn gS k = (zn (t_shape src) k + zn (t_base src) k - 1) / zn (t_base src) k.
Proof. intros Hk. unfold gridZ. rewrite zn_map2; [reflexivity|rewrite (wf_len _ Hs); reflexivity|lia]. Qed.
Lemma dti_inb i : 0 <= i < prodZ ci_cnt -> inb gD (ci_dti i).
Proof.
  intros Hi. apply TraitsProofs.inb_zn. rewrite zlen_gD, zlen_dti. split; [reflexivity|]. intros k Hk.
  pose proof (dti_range i k Hi Hk). pose proof (evt k Hk). rewrite zn_gD by lia. lia.
Qed.
Lemma dt_range i : 0 <= i < prodZ ci_cnt -> 0 <= ci_dt i < ntiles dst.
Proof. intros Hi. apply off_bound, dti_inb, Hi. Qed.
Lemma tsh_dt i : 0 <= i < prodZ ci_cnt -> tsh dst (ci_dt i) = tshape (t_shape dst) (t_base dst) (ci_dti i).
Proof. intros Hi. unfold tsh, ci_dt. rewrite unoff_off by (apply dti_inb; assumption). reflexivity. Qed.
Lemma zlen_tsh_dt i : 0 <= i < prodZ ci_cnt -> zlen (tsh dst (ci_dt i)) = n.
Proof. intros Hi. rewrite tsh_dt by assumption. rewrite zlen_tshape; rewrite ?zlen_dti, ?(wf_len _ Hd); lia. Qed.
Lemma zn_tsh_dt i k : 0 <= i < prodZ ci_cnt -> 0 <= k < n ->
  zn (tsh dst (ci_dt i)) k = Z.min (zn (t_base dst) k) (zn (t_shape dst) k - zn (ci_dti i) k * zn (t_base dst) k).
Proof. intros Hi Hk. rewrite tsh_dt by assumption. apply zn_tshape; rewrite ?zlen_dti, ?(wf_len _ Hd); lia. Qed.

Section I.
Variable i : Z.
Hypothesis Hi : 0 <= i < prodZ ci_cnt.
Lemma evs k : 0 <= k < n -> 0 <= ev_sb src dst so do_ (ci_dti i) k /\ ev_sb src dst so do_ (ci_dti i) k < ev_se src dst so do_ (ci_dti i) k /\
  ev_se src dst so do_ (ci_dti i) k <= (zn (t_shape src) k + zn (t_base src) k - 1) / zn (t_base src) k.
Proof. intros Hk. apply (d_s_range _ _ _ _ _ _ _ (evd k Hk) _ (dti_range i k Hi Hk)). Qed.
Lemma cnt2_pos : pos (ci_cnt2 i).
Proof.
  apply pos_zn. unfold ci_cnt2. rewrite zlen_ztab by lia. intros k Hk. rewrite zn_ztab by lia. pose proof (evs k Hk). lia.
Qed.
Lemma zlen_cnt2 : zlen (ci_cnt2 i) = n. Proof. unfold ci_cnt2. rewrite zlen_ztab; lia. Qed.
Lemma zlen_sti j : zlen (ci_sti i j) = n.
Proof. unfold ci_sti, ci_sb. rewrite zlen_map2; rewrite ?zlen_unoff, ?zlen_cnt2, zlen_ztab; lia. Qed.
Lemma zn_sti j k : 0 <= k < n -> zn (ci_sti i j) k = ev_sb src dst so do_ (ci_dti i) k + zn (unoff (ci_cnt2 i) j) k.
Proof. intros Hk. unfold ci_sti, ci_sb. rewrite zn_map2 by (rewrite ?zlen_unoff, ?zlen_cnt2, ?zlen_ztab; lia). rewrite zn_ztab by lia. reflexivity. Qed.
Lemma sti_0 : ci_sti i 0 = ci_sb i.
Proof. apply add_unoff0; [apply cnt2_pos|]. unfold ci_sb. rewrite zlen_cnt2, zlen_ztab; lia. Qed.
Section J.
Variable j : Z.
Hypothesis Hj : 0 <= j < prodZ (ci_cnt2 i).
Lemma sti_range k : 0 <= k < n -> ev_sb src dst so do_ (ci_dti i) k <= zn (ci_sti i j) k < ev_se src dst so do_ (ci_dti i) k.
Proof.
  intros Hk. rewrite zn_sti by assumption.
  destruct (proj1 (TraitsProofs.inb_zn _ _) (unoff_inb (ci_cnt2 i) j cnt2_pos Hj)) as [_ H].
  specialize (H k). rewrite zlen_cnt2 in H. specialize (H Hk). unfold ci_cnt2 at 3 in H. rewrite zn_ztab in H by lia. lia.
Qed.
Lemma sti_inb : inb gS (ci_sti i j).
Proof.
  apply TraitsProofs.inb_zn. rewrite zlen_gS, zlen_sti. split; [reflexivity|]. intros k Hk.
  pose proof (sti_range k Hk). pose proof (evs k Hk). rewrite zn_gS by lia. lia.
Qed.
Lemma st_range : 0 <= ci_st i j < ntiles src.
Proof. apply off_bound, sti_inb. Qed.
Lemma tsh_st : tsh src (ci_st i j) = tshape (t_shape src) (t_base src) (ci_sti i j).
Proof. unfold tsh, ci_st. rewrite unoff_off by apply sti_inb. reflexivity. Qed.
Lemma zlen_tsh_st : zlen (tsh src (ci_st i j)) = n.
Proof. rewrite tsh_st. rewrite zlen_tshape; rewrite ?zlen_sti, ?(wf_len _ Hs); lia. Qed.
Lemma zn_tsh_st k : 0 <= k < n ->
  zn (tsh src (ci_st i j)) k = Z.min (zn (t_base src) k) (zn (t_shape src) k - zn (ci_sti i j) k * zn (t_base src) k).
Proof. intros Hk. rewrite tsh_st. apply zn_tshape; rewrite ?zlen_sti, ?(wf_len _ Hs); lia. Qed.
Lemma box_dst : box_in (tsh dst (ci_dt i)) (ci_dts i j) (ci_cts i j).
Proof.
  unfold box_in. rewrite zlen_tsh_dt by assumption. unfold ci_dts, ci_cts. rewrite !zlen_ztab by lia.
  split; [reflexivity|]. split; [reflexivity|]. intros k Hk. rewrite !zn_ztab by lia. rewrite zn_tsh_dt by assumption.
  destruct (d_box_dst _ _ _ _ _ _ _ (evd k Hk) _ (dti_range i k Hi Hk) _ (sti_range k Hk)) as (H1 & H2 & H3).
  unfold ev_dts, ev_cts. lia.
Qed.
Lemma box_src : box_in (tsh src (ci_st i j)) (ci_sts i j) (ci_cts i j).
Proof.
  unfold box_in. rewrite zlen_tsh_st by assumption. unfold ci_sts, ci_cts. rewrite !zlen_ztab by lia.
  split; [reflexivity|]. split; [reflexivity|]. intros k Hk. rewrite !zn_ztab by lia. rewrite zn_tsh_st by assumption.
  destruct (d_box_src _ _ _ _ _ _ _ (evd k Hk) _ (dti_range i k Hi Hk) _ (sti_range k Hk)) as (H1 & H2 & H3).
  unfold ev_sts, ev_cts. lia.
Qed.
End J.

(** Special case: the whole destination tile is a copy of a whole source tile. *)
Lemma special_facts : ci_special i = true ->
  prodZ (ci_cnt2 i) = 1 /\ ci_md i 0 = MW /\ ci_cts i 0 = tsh src (ci_st i 0) /\ ci_cts i 0 = tsh dst (ci_dt i) /\
  (forall k, 0 <= k < n -> zn (ci_dts i 0) k = 0 /\ zn (ci_sts i 0) k = 0).
Proof.
  intros Hsp. unfold ci_special in Hsp. apply andb_true_iff in Hsp as [Hsp H3]. apply andb_true_iff in Hsp as [H1 H2].
  apply Z.eqb_eq in H1. apply list_eqb_Z in H3. assert (H0 : 0 <= 0 < prodZ (ci_cnt2 i)) by lia.
  assert (Hm : ci_md i 0 = MW) by (destruct (ci_md i 0); try discriminate; reflexivity).
  split; [assumption|]. split; [assumption|]. split; [assumption|].
  assert (Hbad : forall k, 0 <= k < n -> ev_bad src dst so do_ (ci_dti i) (tsh dst (ci_dt i)) k = false).
  { intros k Hk. unfold ci_md in Hm. rewrite Z.eqb_refl in Hm.
    destruct (existsb (ev_bad src dst so do_ (ci_dti i) (tsh dst (ci_dt i))) (zrange n)) eqn:Ee; [discriminate|].
    destruct (ev_bad src dst so do_ (ci_dti i) (tsh dst (ci_dt i)) k) eqn:Eb; [|reflexivity].
    exfalso. rewrite <- not_true_iff_false in Ee. apply Ee. apply existsb_exists. exists k. split; [apply zrange_In; lia|assumption]. }
  assert (Hone : forall k, 0 <= k < n -> ev_se src dst so do_ (ci_dti i) k = ev_sb src dst so do_ (ci_dti i) k + 1).
  { intros k Hk. pose proof (sti_range 0 H0 k Hk) as R0. pose proof cnt2_pos as Pc.
    assert (Hf : forall l k, pos l -> prodZ l = 1 -> 0 <= k < zlen l -> zn l k = 1).
    { clear. intros l. induction l as [|x l IH]; intros k Hp E Hk; [unfold zlen in Hk; cbn [List.length] in Hk; lia|].
      inversion Hp as [|? ? Hx Hl]; subst. cbn [prodZ] in E. pose proof (prodZ_pos l Hl) as Hpl.
      assert (x = 1 /\ prodZ l = 1) as [-> E2] by nia. rewrite zlen_cons in Hk.
      destruct (Z.eq_dec k 0) as [->|Hne]; [reflexivity|].
      replace (zn (1 :: l) k) with (zn l (k - 1)); [apply IH; auto; lia|]. unfold zn. replace (Z.to_nat k) with (S (Z.to_nat (k - 1))) by lia. reflexivity. }
    pose proof (Hf (ci_cnt2 i) k Pc H1 ltac:(rewrite zlen_cnt2; lia)) as E. unfold ci_cnt2 in E. rewrite zn_ztab in E by lia. lia. }
  assert (Hall : forall k, 0 <= k < n -> zn (ci_dts i 0) k = 0 /\ zn (ci_cts i 0) k = zn (tsh dst (ci_dt i)) k).
  { intros k Hk. unfold ci_dts, ci_cts. rewrite !zn_ztab by lia. unfold ev_dts, ev_cts.
    rewrite (d_dts_eq _ _ _ _ _ _ _ (evd k Hk) _ (dti_range i k Hi Hk) _ (sti_range 0 H0 k Hk)).
    rewrite (d_cts_eq _ _ _ _ _ _ _ (evd k Hk) _ (dti_range i k Hi Hk) _ (sti_range 0 H0 k Hk)).
    destruct (d_single _ _ _ _ _ _ _ (evd k Hk) _ (dti_range i k Hi Hk) _ (sti_range 0 H0 k Hk) (Hone k Hk)) as [-> ->].
    destruct (d_good _ _ _ _ _ _ _ (evd k Hk) _ (dti_range i k Hi Hk) _ (zn_tsh_dt i k Hi Hk) (Hbad k Hk)) as [-> ->]. lia. }
  split.
  - apply list_ext; [unfold ci_cts; rewrite zlen_tsh_dt, zlen_ztab by lia; reflexivity|].
    unfold ci_cts at 1. rewrite zlen_ztab by lia. intros k Hk. apply Hall. assumption.
  - intros k Hk. split; [apply Hall; assumption|]. destruct (box_src 0 H0) as (_ & _ & B). specialize (B k).
    rewrite zlen_tsh_st in B by assumption. specialize (B Hk). rewrite H3 in B. lia.
Qed.
End I.

(** *** The submitted tasks *)
Lemma ci_loop : ~ (so = do_ /\ t_shape src = t_shape dst /\ t_base src = t_base dst) ->
  copy_intersection_async ScOwn src so dst do_ scratch = Ok (map ci_task ci_xs).
Proof.
  intros Hne. unfold copy_intersection_async. rewrite (t_ndim_eq _ Hs), (t_ndim_eq _ Hd), Hn, Lso, Ldo, !Z.eqb_refl. cbn [negb throw_if].
  destruct (Z.eqb_spec n 0) as [E0|_]; [lia|].
  replace (list_eqb Z.eqb so do_ && list_eqb Z.eqb (t_shape src) (t_shape dst) && list_eqb Z.eqb (t_base src) (t_base dst)) with false.
  2: { symmetry. apply not_true_iff_false. intros H. apply andb_true_iff in H as [H H3]. apply andb_true_iff in H as [H1 H2].
       apply list_eqb_Z in H1, H2, H3. apply Hne. auto. }
  rewrite (ci_box_ok src dst so do_ Hs Hd Hn Lso Ldo), Hmeet. bnd. fold ci_cnt.
  pose proof (prodZ_pos _ cnt_pos) as Hp.
  edestruct (for_inv (fun i st => fst st = ci_dti (Z.min i (prodZ ci_cnt - 1)) /\
      snd st = map ci_task (flat_map (fun i => map (pair i) (zrange (prodZ (ci_cnt2 i)))) (zrange i))) 0 (prodZ ci_cnt)) as (st & E & I);
    [lia| | |rewrite E; bnd; destruct st as [a b]; destruct I as [_ I]; cbn [snd] in I; rewrite I; reflexivity].
  - cbn [fst snd]. split; [|reflexivity]. replace (Z.min 0 (prodZ ci_cnt - 1)) with 0 by lia. unfold ci_dti.
    rewrite add_unoff0; [reflexivity|apply cnt_pos|]. rewrite zlen_cnt, zlen_ztab; lia.
  - intros i [d ts] Hi [E1 E2]. cbn [fst snd] in E1, E2. subst d ts. replace (Z.min i (prodZ ci_cnt - 1)) with i by lia.
    set (ts0 := map ci_task _). cbv beta iota.
    rewrite (t_grid_eq _ Hd), (t_grid_eq _ Hs). rewrite index_to_linear_ok by (apply dti_inb; assumption). bnd. fold (ci_dt i).
    rewrite get_tile_traits_ok by (auto using dt_range). bnd. rewrite get_tile_handle_ok by (auto using dt_range). bnd.
    cbn [tt_shape tt_of].
    rewrite (ci_range_ok src dst so do_ Hs Hd Hn Hmeet (ci_dti i) (zlen_dti i)
      (fun k Hk => dti_range i k Hi Hk) (tsh dst (ci_dt i)) (zlen_tsh_dt i Hi)). bnd.
    rewrite (ci_first_ok src dst so do_ (ci_dti i) Hs Hd Hn Lso Ldo (zlen_dti i)). bnd.
    fold (ci_sb i) (ci_se i) (ci_cnt2 i). rewrite <- (sti_0 i Hi). fold (ci_sts i 0) (ci_dts i 0) (ci_cts i 0).
    pose proof (prodZ_pos _ (cnt2_pos i Hi)) as Hp2. assert (H0 : 0 <= 0 < prodZ (ci_cnt2 i)) by lia.
    rewrite index_to_linear_ok by (apply sti_inb; assumption). bnd. fold (ci_st i 0).
    rewrite get_tile_traits_ok by (try apply st_range; assumption). bnd.
    rewrite get_tile_handle_ok by (try apply st_range; assumption). bnd.
    change (if existsb (ev_bad src dst so do_ (ci_dti i) (tsh dst (ci_dt i))) (zrange n) then MRW else MW) with (ci_md i 0).
    cbn [tt_shape tt_of].
    assert (Ets : exists r, r = Ok (ts0 ++ map ci_task (map (pair i) (zrange (prodZ (ci_cnt2 i))))) /\
      (if (prodZ (ci_cnt2 i) =? 1) && is_W (ci_md i 0) && list_eqb Z.eqb (ci_cts i 0) (tsh src (ci_st i 0))
       then Ok (ts0 ++ [copy_submit (th src (ci_st i 0)) (th dst (ci_dt i))])
       else
         let ts := ts0 ++ [subcopy_submit ScOwn n (ci_sts i 0) (strides (tsh src (ci_st i 0))) (ci_dts i 0) (strides (tsh dst (ci_dt i)))
                             (ci_cts i 0) (th src (ci_st i 0)) (th dst (ci_dt i)) scratch (ci_md i 0)] in
         '(_, _, ts) <- for_ 1 (prodZ (ci_cnt2 i)) (fun j '(sti, v, ts) =>
              sti <- odo_next (ci_sti i 0) (ci_se i) sti ;;
              '(sts, dts, cts) <- ci_next src dst SS DS CS TB TE (ci_dti i) (ci_sti i 0) (ci_se i) sti v ;;
              sto <- index_to_linear (tt_of gS) sti ;;
              sth <- get_tile_handle src sto ;;
              stt <- get_tile_traits src sto ;;
              Ok (sti, (sts, dts, cts),
                  ts ++ [subcopy_submit ScOwn n sts (tt_stride stt) dts (strides (tsh dst (ci_dt i))) cts sth (th dst (ci_dt i)) scratch MRW]))
              (ci_sti i 0, (ci_sts i 0, ci_dts i 0, ci_cts i 0), ts) ;;
         Ok ts) = r).
    { eexists. split; [reflexivity|]. fold (ci_special i). destruct (ci_special i) eqn:Esp.
      - destruct (special_facts i Hi Esp) as (P1 & P2 & _). rewrite P1. change (zrange 1) with [0]. cbn [map].
        unfold ci_task at 1. cbn [fst snd]. unfold ci_scr, ci_body. cbn [fst]. rewrite Esp, P2. reflexivity.
      - assert (Et : forall j, ci_task (i, j) = subcopy_submit ScOwn n (ci_sts i j) (strides (tsh src (ci_st i j))) (ci_dts i j)
            (strides (tsh dst (ci_dt i))) (ci_cts i j) (th src (ci_st i j)) (th dst (ci_dt i)) scratch (ci_md i j)).
        { intros j. unfold ci_task, subcopy_submit, ci_scr, ci_body. cbn [fst snd]. rewrite Esp. reflexivity. }
        cbv zeta.
        edestruct (for_inv (fun j (st : list Z * (list Z * list Z * list Z) * list (task T)) => fst (fst st) = ci_sti i (j - 1) /\
            (zlen (fst (fst (snd (fst st)))) = n /\ zlen (snd (fst (snd (fst st)))) = n /\ zlen (snd (snd (fst st))) = n) /\
            snd st = ts0 ++ map ci_task (map (pair i) (zrange j))) 1 (prodZ (ci_cnt2 i))) as (st & E & I);
          [lia| | |rewrite E; bnd; destruct st as [[a v] b]; destruct I as (_ & _ & I); cbn [snd] in I; rewrite I; reflexivity].
        + cbn [fst snd]. split; [reflexivity|]. split.
          { unfold ci_sts, ci_dts, ci_cts. rewrite !zlen_ztab by lia. auto. }
          change (zrange 1) with [0]. cbn [map]. rewrite Et. reflexivity.
        + intros j [[a v] b] Hj. cbn [fst snd]. intros (-> & (V1 & V2 & V3) & ->). cbv beta iota.
          assert (Hj' : 0 <= j < prodZ (ci_cnt2 i)) by lia.
          assert (Eo : odo_next (ci_sti i 0) (ci_se i) (ci_sti i (j - 1)) = Ok (ci_sti i j)).
          { rewrite (sti_0 i Hi). unfold ci_sti. rewrite (odo_next_ok (ci_sb i) (ci_cnt2 i)).
            - repeat f_equal. lia.
            - unfold ci_sb. rewrite zlen_cnt2, zlen_ztab; lia.
            - apply cnt2_pos. assumption.
            - unfold ci_se, ci_sb, ci_cnt2. apply list_ext; [rewrite zlen_map2; rewrite !zlen_ztab; lia|].
              rewrite zlen_ztab by lia. intros k Hk. rewrite zn_map2 by (rewrite !zlen_ztab; lia). rewrite !zn_ztab by lia. lia.
            - lia.
            - lia. }
          rewrite Eo. bnd. rewrite (sti_0 i Hi). unfold ci_sb, ci_se.
          rewrite (ci_next_ok src dst so do_ Hs Hd Hn (ci_dti i) (zlen_dti i) (ci_sti i j) (zlen_sti i j) v V1 V2 V3). bnd.
          rewrite index_to_linear_ok by (apply sti_inb; assumption). bnd. fold (ci_st i j).
          rewrite get_tile_handle_ok by (try apply st_range; assumption). bnd.
          rewrite get_tile_traits_ok by (try apply st_range; assumption). bnd.
          eexists. split; [reflexivity|]. cbn [fst snd]. replace (j + 1 - 1) with j by lia.
          split; [reflexivity|]. split; [rewrite !zlen_ztab by lia; auto|].
          rewrite zrange_succ, !map_app, <- app_assoc by lia. cbn [map]. rewrite Et.
          unfold ci_md. destruct (Z.eqb_spec j 0); [lia|]. reflexivity. }
    destruct Ets as (r & Er & Ets). cbv zeta in Ets. cbv zeta. rewrite (tt_stride_of (tsh dst (ci_dt i))), (tt_stride_of (tsh src (ci_st i 0))).
    rewrite Ets, Er. bnd.
    assert (Eo : (if i =? prodZ ci_cnt - 1 then Ok (ci_dti i) else odo_next TB TE (ci_dti i)) = Ok (ci_dti (Z.min (i + 1) (prodZ ci_cnt - 1)))).
    { destruct (Z.eqb_spec i (prodZ ci_cnt - 1)) as [Ei|Ei]; [do 2 f_equal; lia|].
      unfold ci_dti at 1. rewrite (odo_next_ok TB ci_cnt).
      - replace (Z.min (i + 1) (prodZ ci_cnt - 1)) with (i + 1) by lia. reflexivity.
      - rewrite zlen_cnt, zlen_ztab; lia.
      - apply cnt_pos.
      - unfold ci_cnt. apply list_ext; [rewrite zlen_map2; rewrite !zlen_ztab; lia|].
        rewrite zlen_ztab by lia. intros k Hk. rewrite zn_map2 by (rewrite !zlen_ztab; lia). rewrite !zn_ztab by lia. lia.
      - lia.
      - lia. }
    rewrite Eo. bnd. eexists. split; [reflexivity|]. cbn [fst snd]. split; [reflexivity|].
    rewrite zrange_succ, flat_map_app, map_app by lia. cbn [flat_map]. rewrite app_nil_r. reflexivity.
Qed.

(** *** Their result *)
Definition ci_G (x : Z * Z) (pre post : list (buf T)) (o : Z) (v : T) : T :=
  match pre with
  | b :: _ =>
      let r := map2 Z.sub (unoff (tsh dst (ci_dt (fst x))) o) (ci_dts (fst x) (snd x)) in
      if inbb (ci_cts (fst x) (snd x)) r then zn (fl b) (off (tsh src (ci_st (fst x) (snd x))) (map2 Z.add (ci_sts (fst x) (snd x)) r)) else v
  | [] => v
  end.

Lemma xs_In x : In x ci_xs <-> 0 <= fst x < prodZ ci_cnt /\ 0 <= snd x < prodZ (ci_cnt2 (fst x)).
Proof.
  unfold ci_xs. rewrite in_flat_map. destruct x as [i j]. cbn [fst snd]. split.
  - intros (i' & H1 & H2). apply in_map_iff in H2 as (j' & E & H2). inversion E; subst. apply zrange_In in H1, H2. auto.
  - intros [H1 H2]. exists i. rewrite zrange_In. split; [assumption|]. apply in_map_iff. exists j. rewrite zrange_In. auto.
Qed.

Lemma ci_body_ok s st x d sc : stored KF s src -> ty (s scratch) = (KI, 2 * n) -> In x ci_xs -> tinv s st ->
  zlen d = tsz dst (ci_dt (fst x)) -> map ty sc = map (fun h => ty (s h)) (ci_scr x) ->
  exists sc', ci_body x (map st [th src (ci_st (fst x) (snd x))] ++ BF d :: map st [] ++ sc) =
    Ok (map st [th src (ci_st (fst x) (snd x))] ++
        BF (ztab (tsz dst (ci_dt (fst x))) (fun o => ci_G x (map st [th src (ci_st (fst x) (snd x))]) (map st []) o (zn d o)))
        :: map st [] ++ sc') /\ List.length sc' = List.length (ci_scr x).
Proof.
  intros Hss Hscr Hx Hti Hd' Hsc. apply xs_In in Hx as [Hi Hj]. destruct x as [i j]. cbn [fst snd] in *.
  pose proof (st_range i Hi j Hj) as Hst. cbn [map app].
  assert (Et : ty (st (th src (ci_st i j))) = (KF, tsz src (ci_st i j))) by (rewrite Hti; apply Hss; assumption).
  destruct (ty_BF _ _ Et) as (a & Ea & La). rewrite Ea.
  pose proof (tsz_pos dst _ Hd (dt_range i Hi)) as Hsz.
  unfold ci_body, ci_scr in *. cbn [fst snd] in *. destruct (ci_special i) eqn:Esp.
  - destruct (special_facts i Hi Esp) as (P1 & P2 & P3 & P4 & P5). assert (j = 0) by lia. subst j.
    destruct sc as [|]; [|discriminate]. exists []. split; [|reflexivity].
    assert (El : tsz src (ci_st i 0) = tsz dst (ci_dt i)) by (unfold tsz; congruence).
    unfold copy_cpu, memcpy. rewrite La, Hd', El, Z.leb_refl. bnd. f_equal. f_equal. f_equal. f_equal.
    rewrite skipn_all2 by (unfold zlen in *; lia). rewrite app_nil_r.
    apply list_ext; [rewrite zlen_ztab; lia|]. rewrite La, El. intros o Ho. rewrite zn_ztab by lia.
    unfold ci_G. cbn [fst snd fl].
    pose proof (unoff_inb _ o (tsh_pos _ _ Hd (dt_range i Hi)) Ho) as Hu.
    assert (Lu : zlen (unoff (tsh dst (ci_dt i)) o) = n) by (rewrite zlen_unoff; apply zlen_tsh_dt; assumption).
    assert (Er : map2 Z.sub (unoff (tsh dst (ci_dt i)) o) (ci_dts i 0) = unoff (tsh dst (ci_dt i)) o).
    { assert (Ld : zlen (ci_dts i 0) = n) by (unfold ci_dts; rewrite zlen_ztab; lia).
      apply list_ext; [rewrite zlen_map2; lia|]. rewrite zlen_map2 by lia. intros k Hk. rewrite zn_map2 by lia.
      destruct (P5 k ltac:(lia)). lia. }
    rewrite Er. rewrite P4. rewrite (proj2 (inbb_spec _ _) Hu).
    assert (Es : map2 Z.add (ci_sts i 0) (unoff (tsh dst (ci_dt i)) o) = unoff (tsh dst (ci_dt i)) o).
    { assert (Ld : zlen (ci_sts i 0) = n) by (unfold ci_sts; rewrite zlen_ztab; lia).
      apply list_ext; [rewrite zlen_map2; lia|]. rewrite zlen_map2 by lia. intros k Hk. rewrite zn_map2 by lia.
      destruct (P5 k ltac:(lia)). lia. }
    rewrite Es, <- P3, P4. rewrite off_unoff; [reflexivity|apply tsh_pos; [assumption|apply dt_range; assumption]|assumption].
  - destruct sc as [|c [|]]; [discriminate| |discriminate]. cbn [map] in Hsc. inversion Hsc as [Hc]. rewrite Hscr in Hc.
    destruct (ty_BI _ _ Hc) as (tmp & -> & Lt).
    destruct (k_subcopy_ok n (tsh src (ci_st i j)) (tsh dst (ci_dt i)) (ci_sts i j) (ci_dts i j) (ci_cts i j) a d tmp) as (tmp' & Lt' & E);
      try assumption; try lia.
    + apply zlen_tsh_st; assumption.
    + apply zlen_tsh_dt; assumption.
    + apply box_src; assumption.
    + apply box_dst; assumption.
    + exists [BI tmp']. split; [|reflexivity]. unfold subcopy_cpu. rewrite E. bnd. reflexivity.
Qed.

Notation delta idx := (map2 Z.sub (map2 Z.add idx do_) so).

Lemma ci_hit_box idx : inb (t_shape dst) idx ->
  (inb (t_shape src) (delta idx) <-> forall k, 0 <= k < n -> ev_ds so do_ k <= zn idx k < ev_ds so do_ k + ev_cs src dst so do_ k).
Proof.
  intros Hidx. destruct (proj1 (TraitsProofs.inb_zn _ _) Hidx) as [Li Hk].
  rewrite TraitsProofs.inb_zn. assert (Ld : zlen (delta idx) = n) by (rewrite !zlen_map2; rewrite ?zlen_map2; lia).
  rewrite Ld. split.
  - intros [_ H] k Hk'. specialize (H k Hk'). rewrite !zn_map2 in H by (rewrite ?zlen_map2; lia).
    apply (d_hit _ _ _ _ (zn idx k) (ev_hs src Hs k Hk') ltac:(apply Hk; lia) (ev_meet_at src dst so do_ Hmeet k Hk')). lia.
  - intros H. split; [lia|]. intros k Hk'. specialize (H k Hk'). rewrite !zn_map2 by (rewrite ?zlen_map2; lia).
    apply (d_hit _ _ _ _ (zn idx k) (ev_hs src Hs k Hk') ltac:(apply Hk; lia) (ev_meet_at src dst so do_ Hmeet k Hk')) in H. lia.
Qed.

Lemma zn_tile_of base idx k : zlen base = zlen idx -> 0 <= k < zlen idx -> zn (tile_of base idx) k = zn idx k / zn base k.
Proof. intros Hl Hk. unfold tile_of. rewrite zn_map2 by lia. reflexivity. Qed.
Lemma zn_in_tile base idx k : zlen base = zlen idx -> 0 <= k < zlen idx -> zn (in_tile base idx) k = zn idx k mod zn base k.
Proof. intros Hl Hk. unfold in_tile. rewrite zn_map2 by lia. reflexivity. Qed.
Lemma zlen_tile_of base idx : zlen base = zlen idx -> zlen (tile_of base idx) = zlen idx.
Proof. intros Hl. unfold tile_of. rewrite zlen_map2; lia. Qed.
Lemma zlen_in_tile base idx : zlen base = zlen idx -> zlen (in_tile base idx) = zlen idx.
Proof. intros Hl. unfold in_tile. rewrite zlen_map2; lia. Qed.
Lemma zlen_delta idx : zlen idx = n -> zlen (delta idx) = n.
Proof. intros Hl. rewrite !zlen_map2; rewrite ?zlen_map2; lia. Qed.
Lemma zn_delta idx k : zlen idx = n -> 0 <= k < n -> zn (delta idx) k = zn idx k + (ev_ss so do_ k - ev_ds so do_ k).
Proof.
  intros Hl Hk. rewrite !zn_map2 by (rewrite ?zlen_map2; lia).
  destruct (d_facts _ _ _ _ (ev_hs src Hs k Hk) (ev_hd src dst Hd Hn k Hk) (ev_meet_at src dst so do_ Hmeet k Hk)) as (_ & _ & _ & _ & _ & E).
  unfold ev_ss, ev_ds. lia.
Qed.

Section Elem.
Variable idx : list Z.
Hypothesis Hidx : inb (t_shape dst) idx.
Local Lemma Lidx : zlen idx = n. Proof. rewrite <- (inb_zlen _ _ Hidx). assumption. Qed.
Local Lemma Lbd : zlen (t_base dst) = zlen idx. Proof. rewrite Lidx, (wf_len _ Hd). assumption. Qed.
Local Lemma Lbs : zlen (t_base src) = n. Proof. apply (wf_len _ Hs). Qed.

Section X.
Variables i j : Z.
Hypothesis (Hi : 0 <= i < prodZ ci_cnt) (Hj : 0 <= j < prodZ (ci_cnt2 i)) (Ho : ci_dt i = etile dst idx).
Lemma dti_tile : ci_dti i = tile_of (t_base dst) idx.
Proof.
  apply (off_inj gD); [apply dti_inb; assumption| |exact Ho].
  apply tile_of_inb; [apply wf_len'; assumption|apply wf_pb; assumption|assumption].
Qed.
Lemma dti_bounds k : 0 <= k < n -> zn (ci_dti i) k * zn (t_base dst) k <= zn idx k < (zn (ci_dti i) k + 1) * zn (t_base dst) k.
Proof.
  intros Hk. rewrite dti_tile. rewrite zn_tile_of by (rewrite ?Lbd, ?Lidx; lia || reflexivity).
  pose proof (ev_bd src dst Hd Hn k Hk) as Hb.
  assert (Hb0 : zn (t_base dst) k <> 0) by lia.
  pose proof (Z.div_mod (zn idx k) (zn (t_base dst) k) Hb0). pose proof (Z.mod_pos_bound (zn idx k) (zn (t_base dst) k) Hb).
  set (q := zn idx k / zn (t_base dst) k) in *. set (b := zn (t_base dst) k) in *. lia.
Qed.
Lemma unoff_eoff : unoff (tsh dst (ci_dt i)) (eoff dst idx) = in_tile (t_base dst) idx.
Proof.
  rewrite Ho, tsh_etile by assumption. unfold eoff. apply unoff_off.
  apply in_tile_inb; [apply wf_len'; assumption|apply wf_pb; assumption|assumption].
Qed.
Lemma inbb_cts : inbb (ci_cts i j) (map2 Z.sub (in_tile (t_base dst) idx) (ci_dts i j)) = true <->
  (forall k, 0 <= k < n -> ev_ds so do_ k <= zn idx k < ev_ds so do_ k + ev_cs src dst so do_ k) /\
  ci_sti i j = tile_of (t_base src) (delta idx).
Proof.
  pose proof Lidx as Li. pose proof Lbd as Lb. pose proof Lbs as Lb'. pose proof (zlen_delta idx Li) as Ld.
  assert (Lds : zlen (ci_dts i j) = n) by (unfold ci_dts; rewrite zlen_ztab; lia).
  assert (Lit : zlen (in_tile (t_base dst) idx) = n) by (rewrite zlen_in_tile; lia).
  rewrite inbb_spec, TraitsProofs.inb_zn. rewrite zlen_map2 by lia.
  assert (Lc : zlen (ci_cts i j) = n) by (unfold ci_cts; rewrite zlen_ztab; lia). rewrite Lc, Lit.
  assert (Key : forall k, 0 <= k < n ->
    (0 <= zn (map2 Z.sub (in_tile (t_base dst) idx) (ci_dts i j)) k < zn (ci_cts i j) k <->
     ev_ds so do_ k <= zn idx k < ev_ds so do_ k + ev_cs src dst so do_ k /\
     zn (ci_sti i j) k = zn (tile_of (t_base src) (delta idx)) k)).
  { intros k Hk. rewrite zn_map2 by lia. rewrite zn_in_tile by lia. rewrite (zn_tile_of (t_base src)) by lia.
    rewrite zn_delta by lia. unfold ci_dts, ci_cts. rewrite !zn_ztab by lia. unfold ev_dts, ev_cts.
    rewrite (d_dts_eq _ _ _ _ _ _ _ (evd k Hk) _ (dti_range i k Hi Hk) _ (sti_range i Hi j Hj k Hk)).
    rewrite (d_cts_eq _ _ _ _ _ _ _ (evd k Hk) _ (dti_range i k Hi Hk) _ (sti_range i Hi j Hj k Hk)).
    pose proof (dti_bounds k Hk) as B.
    pose proof (d_in _ _ _ _ _ _ _ (evd k Hk) _ _ (sti_range i Hi j Hj k Hk) (zn idx k) B) as Din.
    rewrite <- Din.
    assert (Em : zn idx k mod zn (t_base dst) k = zn idx k - zn (ci_dti i) k * zn (t_base dst) k).
    { rewrite dti_tile. rewrite zn_tile_of by lia. pose proof (ev_bd src dst Hd Hn k Hk). rewrite Z.mod_eq by lia. lia. }
    rewrite Em. lia. }
  split.
  - intros [_ H]. split; [intros k Hk; apply (proj1 (Key k Hk)), H, Hk|].
    apply list_ext; [rewrite zlen_sti, zlen_tile_of; lia|]. rewrite zlen_sti. intros k Hk. apply (proj1 (Key k Hk)), H, Hk.
  - intros [H1 H2]. split; [reflexivity|]. intros k Hk. apply (proj2 (Key k Hk)). split; [apply H1; assumption|]. rewrite H2. reflexivity.
Qed.
Lemma ci_G_hit b post v : (forall k, 0 <= k < n -> ev_ds so do_ k <= zn idx k < ev_ds so do_ k + ev_cs src dst so do_ k) ->
  ci_sti i j = tile_of (t_base src) (delta idx) -> ci_G (i, j) [b] post (eoff dst idx) v = zn (fl b) (eoff src (delta idx)).
Proof.
  intros H1 H2. unfold ci_G. cbn [fst snd]. rewrite unoff_eoff. rewrite (proj2 inbb_cts (conj H1 H2)). f_equal.
  pose proof Lidx as Li. pose proof Lbd as Lb. pose proof Lbs as Lb'. pose proof (zlen_delta idx Li) as Ld.
  unfold eoff. rewrite tsh_st by assumption. rewrite H2. f_equal.
  assert (Lds : zlen (ci_dts i j) = n) by (unfold ci_dts; rewrite zlen_ztab; lia).
  assert (Lss : zlen (ci_sts i j) = n) by (unfold ci_sts; rewrite zlen_ztab; lia).
  assert (Lit : zlen (in_tile (t_base dst) idx) = n) by (rewrite zlen_in_tile; lia).
  apply list_ext; [rewrite (zlen_in_tile (t_base src)) by lia; rewrite Ld, zlen_map2; rewrite ?zlen_map2; lia|].
  rewrite zlen_map2 by (rewrite zlen_map2; lia). rewrite Lss. intros k Hk.
  rewrite !zn_map2 by (rewrite ?zlen_map2; lia). rewrite !zn_in_tile by lia. rewrite zn_delta by lia.
  unfold ci_dts, ci_sts. rewrite !zn_ztab by lia. unfold ev_dts, ev_sts.
  rewrite (d_dts_eq _ _ _ _ _ _ _ (evd k Hk) _ (dti_range i k Hi Hk) _ (sti_range i Hi j Hj k Hk)).
  rewrite (d_sts_eq _ _ _ _ _ _ _ (evd k Hk) _ (dti_range i k Hi Hk) _ (sti_range i Hi j Hj k Hk)).
  assert (Em : zn idx k mod zn (t_base dst) k = zn idx k - zn (ci_dti i) k * zn (t_base dst) k).
  { rewrite dti_tile. rewrite zn_tile_of by lia. pose proof (ev_bd src dst Hd Hn k Hk). rewrite Z.mod_eq by lia. lia. }
  assert (Em2 : (zn idx k + (ev_ss so do_ k - ev_ds so do_ k)) mod zn (t_base src) k =
     zn idx k + (ev_ss so do_ k - ev_ds so do_ k) - zn (ci_sti i j) k * zn (t_base src) k).
  { rewrite H2. rewrite zn_tile_of by lia. rewrite zn_delta by lia. pose proof (ev_bs src Hs k Hk). rewrite Z.mod_eq by lia. lia. }
  rewrite Em, Em2. lia.
Qed.
Lemma ci_G_miss b post v : ~ ((forall k, 0 <= k < n -> ev_ds so do_ k <= zn idx k < ev_ds so do_ k + ev_cs src dst so do_ k) /\
  ci_sti i j = tile_of (t_base src) (delta idx)) -> ci_G (i, j) [b] post (eoff dst idx) v = v.
Proof.
  intros H. unfold ci_G. cbn [fst snd]. rewrite unoff_eoff. destruct (inbb _ _) eqn:E; [|reflexivity].
  exfalso. apply H, inbb_cts, E.
Qed.
(** A tile declared write-only is completely inside the intersection. *)
Lemma md_W_box : ci_md i j = MW -> forall k, 0 <= k < n -> ev_ds so do_ k <= zn idx k < ev_ds so do_ k + ev_cs src dst so do_ k.
Proof.
  intros Hm k Hk. unfold ci_md in Hm. destruct (j =? 0); [|discriminate].
  destruct (existsb (ev_bad src dst so do_ (ci_dti i) (tsh dst (ci_dt i))) (zrange n)) eqn:Ee; [discriminate|].
  assert (Hb : ev_bad src dst so do_ (ci_dti i) (tsh dst (ci_dt i)) k = false).
  { destruct (ev_bad src dst so do_ (ci_dti i) (tsh dst (ci_dt i)) k) eqn:Eb; [|reflexivity].
    exfalso. rewrite <- not_true_iff_false in Ee. apply Ee. apply existsb_exists. exists k. split; [apply zrange_In; lia|assumption]. }
  destruct (d_good _ _ _ _ _ _ _ (evd k Hk) _ (dti_range i k Hi Hk) _ (zn_tsh_dt i k Hi Hk) Hb) as [G1 G2].
  pose proof (dti_bounds k Hk) as B. destruct (proj1 (TraitsProofs.inb_zn _ _) Hidx) as [_ Hx]. specialize (Hx k ltac:(lia)).
  rewrite zn_tsh_dt in G2 by assumption. unfold d_lo in G1. unfold d_hi in G2. lia.
Qed.
End X.

Lemma ci_filter i0 : 0 <= i0 < prodZ ci_cnt -> ci_dt i0 = etile dst idx ->
  filter (fun x => ci_dt (fst x) =? etile dst idx) ci_xs = map (pair i0) (zrange (prodZ (ci_cnt2 i0))).
Proof.
  intros Hi0 E0. unfold ci_xs. rewrite filter_flat_map. rewrite (flat_map_one _ _ i0).
  - apply filter_all. intros x Hx. apply in_map_iff in Hx as (j & <- & _). cbn [fst]. apply Z.eqb_eq. assumption.
  - apply NoDup_zrange.
  - apply zrange_In. assumption.
  - intros i Hi Hne. apply filter_none. intros x Hx. apply in_map_iff in Hx as (j & <- & _). cbn [fst]. apply Z.eqb_neq.
    intros Ei. apply Hne. apply zrange_In in Hi.
    assert (Et : ci_dti i = ci_dti i0) by (rewrite (dti_tile i Hi Ei), (dti_tile i0 Hi0 E0); reflexivity).
    unfold ci_dti in Et.
    assert (Eu : unoff ci_cnt i = unoff ci_cnt i0).
    { rewrite <- (sub_add TB (unoff ci_cnt i)), <- (sub_add TB (unoff ci_cnt i0)) by (rewrite zlen_unoff, zlen_cnt, zlen_ztab; lia).
      rewrite Et. reflexivity. }
    rewrite <- (off_unoff ci_cnt i), <- (off_unoff ci_cnt i0) by (assumption || apply cnt_pos). rewrite Eu. reflexivity.
Qed.

(** The tasks for an element inside the intersection. *)
Lemma ci_hit : (forall k, 0 <= k < n -> ev_ds so do_ k <= zn idx k < ev_ds so do_ k + ev_cs src dst so do_ k) ->
  exists i0 j0, 0 <= i0 < prodZ ci_cnt /\ 0 <= j0 < prodZ (ci_cnt2 i0) /\ ci_dt i0 = etile dst idx /\
    ci_sti i0 j0 = tile_of (t_base src) (delta idx).
Proof.
  intros Hbox. pose proof Lidx as Li. pose proof Lbd as Lb. pose proof Lbs as Lb'. pose proof (zlen_delta idx Li) as Ld.
  set (t := tile_of (t_base dst) idx).
  assert (Lt : zlen t = n) by (unfold t; rewrite zlen_tile_of; lia).
  assert (Rt : forall k, 0 <= k < n -> ev_tb dst so do_ k <= zn t k < ev_te src dst so do_ k).
  { intros k Hk. unfold t. rewrite zn_tile_of by lia. apply (d_tile_range _ _ _ _ _ _ _ _ (evd k Hk) (Hbox k Hk)). }
  assert (It : inb ci_cnt (map2 Z.sub t TB)).
  { apply TraitsProofs.inb_zn. rewrite zlen_cnt. assert (Lm : zlen TB = n) by (rewrite zlen_ztab; lia).
    rewrite zlen_map2 by lia. split; [lia|]. intros k Hk. rewrite zn_map2 by lia. unfold ci_cnt. rewrite !zn_ztab by lia.
    specialize (Rt k Hk). lia. }
  exists (off ci_cnt (map2 Z.sub t TB)).
  set (i0 := off ci_cnt (map2 Z.sub t TB)).
  assert (Hi0 : 0 <= i0 < prodZ ci_cnt) by (apply off_bound; assumption).
  assert (Ed : ci_dti i0 = t).
  { unfold ci_dti, i0. rewrite unoff_off by assumption. apply add_sub. rewrite zlen_ztab; lia. }
  set (u := tile_of (t_base src) (delta idx)).
  assert (Lu : zlen u = n) by (unfold u; rewrite zlen_tile_of; lia).
  assert (Iu : inb (ci_cnt2 i0) (map2 Z.sub u (ci_sb i0))).
  { apply TraitsProofs.inb_zn. rewrite zlen_cnt2. assert (Lm : zlen (ci_sb i0) = n) by (unfold ci_sb; rewrite zlen_ztab; lia).
    rewrite zlen_map2 by lia. split; [lia|]. intros k Hk. rewrite zn_map2 by lia. unfold ci_cnt2, ci_sb. rewrite !zn_ztab by lia.
    unfold u. rewrite zn_tile_of by lia. rewrite zn_delta by lia.
    pose proof (d_src_range _ _ _ _ _ _ _ _ (evd k Hk) (Hbox k Hk)) as R. unfold ev_sb, ev_se. rewrite Ed. unfold t. rewrite zn_tile_of by lia. lia. }
  exists (off (ci_cnt2 i0) (map2 Z.sub u (ci_sb i0))).
  split; [assumption|]. split; [apply off_bound; assumption|]. split.
  - unfold ci_dt, etile. rewrite Ed. reflexivity.
  - unfold ci_sti. rewrite unoff_off by assumption. apply add_sub. unfold ci_sb. rewrite zlen_ztab; lia.
Qed.
End Elem.

Theorem ci_runs s : stored KF s src -> stored KF s dst -> disj src dst -> ~ In scratch (tile_handles dst) -> ty (s scratch) = (KI, 2 * n) ->
  runs_nd (Ok (map ci_task ci_xs)) s (fun s' =>
    (forall idx, inb (t_shape dst) idx -> elem s' dst idx = if inbb (t_shape src) (delta idx) then elem s src (delta idx) else elem s dst idx) /\
    frame [dst] s s').
Proof.
  intros Hss Hsd Hdis Hscr Hty.
  eapply nd_weaken; [apply (nd_elem dst ci_xs (fun x => ci_dt (fst x)) (fun x => ci_md (fst x) (snd x))
    (fun x => [th src (ci_st (fst x) (snd x))]) (fun _ => []) ci_scr ci_body ci_G s); try assumption|].
  - reflexivity.
  - intros x Hx. apply xs_In in Hx as [Hi Hj]. apply dt_range. assumption.
  - intros x _. unfold ci_md. destruct (snd x =? 0); [|right; reflexivity]. destruct (existsb _ _); [right|left]; reflexivity.
  - intros x h Hx [[<-|[]]|[[]|Hh]].
    + apply xs_In in Hx as [Hi Hj]. intros Hin. apply (Hdis _ (th_In src _ Hs (st_range (fst x) Hi (snd x) Hj)) Hin).
    + unfold ci_scr in Hh. destruct (ci_special (fst x)); [destruct Hh|]. destruct Hh as [<-|[]]. assumption.
  - intros x st d sc Hx Hti Hd' Hsc. apply ci_body_ok with (s := s); assumption.
  - intros s' _ [H1 H2]. split; [|assumption]. intros idx Hidx. specialize (H1 idx Hidx).
    destruct (inbb (t_shape src) (delta idx)) eqn:Eb.
    + apply inbb_spec in Eb. pose proof (proj1 (ci_hit_box idx Hidx) Eb) as Hbox.
      destruct (ci_hit idx Hidx Hbox) as (i0 & j0 & Hi0 & Hj0 & Ed & Es).
      rewrite (ci_filter idx Hidx i0 Hi0 Ed) in H1. rewrite (zrange_split _ j0 Hj0), map_app in H1. cbn [map] in H1.
      eapply nd_fold_hit in H1; [exact H1| | |].
      * intros v. cbn [fst snd map]. rewrite (ci_G_hit idx Hidx i0 j0 Hi0 Hj0 Ed) by assumption.
        unfold elem. f_equal. f_equal. f_equal. unfold ci_st, etile. rewrite Es. reflexivity.
      * intros x Hx. rewrite map_map in Hx. apply in_map_iff in Hx as (l & <- & Hl). apply zrange_In in Hl. cbn [fst snd].
        unfold ci_md. destruct (Z.eqb_spec (j0 + 1 + l) 0); [lia|reflexivity].
      * intros x v Hx. rewrite map_map in Hx. apply in_map_iff in Hx as (l & <- & Hl). apply zrange_In in Hl. cbn [fst snd map].
        apply (ci_G_miss idx Hidx i0 _ Hi0); [lia|assumption|]. intros [_ E]. rewrite <- Es in E.
        assert (Hj1 : 0 <= j0 + 1 + l < prodZ (ci_cnt2 i0)) by lia.
        assert (Eu : unoff (ci_cnt2 i0) (j0 + 1 + l) = unoff (ci_cnt2 i0) j0).
        { unfold ci_sti in E. rewrite <- (sub_add (ci_sb i0) (unoff (ci_cnt2 i0) (j0 + 1 + l))), <- (sub_add (ci_sb i0) (unoff (ci_cnt2 i0) j0))
            by (unfold ci_sb; rewrite zlen_unoff, zlen_cnt2, zlen_ztab; lia). rewrite E. reflexivity. }
        pose proof (off_unoff (ci_cnt2 i0) (j0 + 1 + l) (cnt2_pos i0 Hi0) Hj1) as E1.
        pose proof (off_unoff (ci_cnt2 i0) j0 (cnt2_pos i0 Hi0) Hj0) as E2. rewrite Eu in E1. lia.
    + assert (Nb : ~ inb (t_shape src) (delta idx)) by (rewrite <- inbb_spec, Eb; discriminate).
      apply nd_fold_id in H1; [assumption| |].
      * intros x Hx. apply filter_In in Hx as [Hx Hx2]. apply xs_In in Hx as [Hi Hj]. apply Z.eqb_eq in Hx2.
        assert (Hc : ci_md (fst x) (snd x) = MW \/ ci_md (fst x) (snd x) = MRW).
        { unfold ci_md. destruct (snd x =? 0); [|right; reflexivity]. destruct (existsb _ _); [right|left]; reflexivity. }
        destruct Hc as [Hc|Hc]; [|assumption]. exfalso. apply Nb, (ci_hit_box idx Hidx).
        apply (md_W_box idx Hidx (fst x) (snd x) Hi Hx2 Hc).
      * intros [i j] v Hx. apply filter_In in Hx as [Hx Hx2]. apply xs_In in Hx as [Hi Hj]. apply Z.eqb_eq in Hx2. cbn [fst snd map] in *.
        apply (ci_G_miss idx Hidx i j Hi Hj Hx2). intros [Hb _]. apply Nb, (ci_hit_box idx Hidx). assumption.
Qed.
End Ci.
