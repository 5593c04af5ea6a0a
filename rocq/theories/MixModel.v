(** * The layers of MlpMixer are right, in order, and those the constructor makes *)
From Coq Require Import Reals Lra FunctionalExtensionality Sorted.
From Verif Require Import Base Spec Geometry Traits TraitsProofs Runtime Ops RealOps TensorSem ElemGeneric Concrete Axis SliceGeo PropElem FiberGeo XReals MatOps RSum MatProofs GemmProofs AttMath XTriples HasRuns TapeMath VjpMath Tape PyLayers PyLinear PySimple PyNorm PyAttn Backprop PropModel PyModels BuildEnv GptBuild BuildModel GptSpec GptModel GptRun Segments SegDiff PyMixer MixerRuns MixSpec MixerSeg PropMixer PyMixModels MixBuild.
Local Close Scope R_scope.
Local Open Scope list_scope.
Local Open Scope Z_scope.
Notation lms ls := (map ly_m ls).
Notation ids ls := (map ly_id ls).

(** The input has no gradient. *)
Definition mreq (m : nat) : bool := negb (m =? 0)%nat.
Lemma mreq_S m : (0 < m)%nat -> mreq m = true.
Proof. destruct m; [lia|reflexivity]. Qed.

Section Mix.
Variables (C B bt E Q Qt V : Z) (x : tensor) (n : nat) (lo : Z) (b : build) (cs : list const).
Hypothesis G : mdims C B bt E Q Qt V.
Hypothesis HB : mbuilt C B bt E Q Qt V x n lo b.
Hypothesis HE : benv_ok b cs.
Hypothesis Hx : t_shape x = [C; B; Q] /\ t_base x = [C; bt; Qt].
Instance Env : env := benv b cs HE.
Notation isn := (isn mreq).

Definition mh1 (k : nat) : half := let N := mfirst k in
  {| h_x := N - 1; h_n := N; h_g := N + 1; h_be := N + 2; h_w1 := N + 3; h_a := N + 4; h_b := N + 5; h_w2 := N + 6; h_y := N + 7; h_id := 1 + 8 * k;
     h_sd := SideR; h_axis := 2; h_eps := sqrt mixer_eps; h_sI := [B; E]; h_sK := [C]; h_sJ := [C * 4]; h_bI := [bt; E]; h_bK := [C]; h_bJ := [C * 4] |}.
Definition mh2 (k : nat) : half := let N := mfirst k in
  {| h_x := N + 7; h_n := N + 8; h_g := N + 9; h_be := N + 10; h_w1 := N + 11; h_a := N + 12; h_b := N + 13; h_w2 := N + 14; h_y := N + 15; h_id := 1 + 8 * k + 4;
     h_sd := SideL; h_axis := 2; h_eps := sqrt mixer_eps; h_sI := [C; B]; h_sK := [E]; h_sJ := [E * 4]; h_bI := [C; bt]; h_bK := [E]; h_bJ := [E * 4] |}.
Notation F := (mfirst n).
Definition m_first : layer := linear_layer mreq SideL NoTrans 0 2 1 1 None 0 [C; B] [Q] [E].
Definition m_head : layer := linear_layer mreq SideR NoTrans (F + 1) (F + 3) (F + 2) 1 None (1 + 8 * n) [B] [E] [V].
Definition m_gap : segment := gap_segment mreq (F - 1) (F + 1) F (3 + 8 * n) (4 + 8 * n) C.
Definition m_segs : list segment := single m_first :: map (fun k => mixer_segment mreq (mh1 k) (mh2 k)) (seq 0 n) ++ [m_gap; single m_head].
Notation gl := (all_layers m_segs).
Definition m_mix (k : nat) : list layer := h_layers mreq (mh1 k) ++ h_layers mreq (mh2 k).
Lemma gl_eq : gl = m_first :: flat_map m_mix (seq 0 n) ++ [mean_layer (F - 1) F (3 + 8 * n) C; tr_layer F (F + 1) (4 + 8 * n); m_head].
Proof.
  unfold all_layers, m_segs. cbn [flat_map single sg_layers app]. f_equal. rewrite flat_map_app. f_equal.
  generalize (seq 0 n) as l. induction l as [|k l IH]; [reflexivity|]. cbn [map flat_map]. rewrite IH. reflexivity.
Qed.
Lemma segs_py : map sg_py m_segs = map (obj_py mreq b) (all_objs n).
Proof.
  unfold m_segs, all_objs, mix_objs. cbn [map app]. f_equal. rewrite !map_app, !map_map. f_equal.
Qed.

(** ** Dimensions *)
Lemma m_isn k tr : (0 < k)%nat -> hasn b k tr -> isn k (fst tr) (snd tr).
Proof.
  intros Hk [H1 H2]. apply hast_U in H1 as (U1 & S1 & B1). apply hast_U in H2 as (U2 & S2 & B2).
  split; [|split; assumption]. split; [assumption|]. intros _. split; [assumption|]. split; [exact (eq_trans S2 (eq_sym S1))|exact (eq_trans B2 (eq_sym B1))].
Qed.
Lemma x_isn : isn 0 [C; B; Q] [C; bt; Qt].
Proof.
  assert (E0 := mb_x _ _ _ _ _ _ _ _ _ _ _ HB). split; [|].
  - split; [|intros Hr; discriminate]. change (bU b (Val 0)). unfold bU. rewrite E0. discriminate.
  - unfold vshape, vbase. cbn [A Env benv]. unfold PyModels.bt. rewrite E0. exact Hx.
Qed.
Lemma mpre_isn i tr : nth_error (mix_pre_nodes C B bt E Q Qt) i = Some tr -> isn (1 + i) (fst tr) (snd tr).
Proof. intros H. apply m_isn; [lia|]. apply (mb_pre _ _ _ _ _ _ _ _ _ _ _ HB). assumption. Qed.
Lemma mblk_isn j i tr : (j < n)%nat -> nth_error (mix_nodes C B bt E) i = Some tr -> isn (mfirst j + i) (fst tr) (snd tr).
Proof. intros Hj H. apply m_isn; [unfold mfirst; lia|]. apply (mb_blk _ _ _ _ _ _ _ _ _ _ _ HB); assumption. Qed.
Lemma mpost_isn i tr : nth_error (mix_post_nodes B bt E V) i = Some tr -> isn (F + i) (fst tr) (snd tr).
Proof. intros H. apply m_isn; [unfold mfirst; lia|]. apply (mb_post _ _ _ _ _ _ _ _ _ _ _ HB). assumption. Qed.
Lemma minp_isn j : (j <= n)%nat -> isn (mfirst j - 1) [C; B; E] [C; bt; E].
Proof.
  intros Hj. destruct j as [|j]; [apply (mpre_isn 1 _ eq_refl)|].
  replace (mfirst (S j) - 1)%nat with (mfirst j + 15)%nat by (unfold mfirst; lia). apply (mblk_isn j 15 _ ltac:(lia) eq_refl).
Qed.
Lemma mtmp_is j l i tr : (j < n)%nat -> In (l, i, tr) (mix_tmps C B bt E) -> is (Tmp (1 + 8 * j + l) i) (fst tr) (snd tr).
Proof. intros Hj H. apply (mb_tmp _ _ _ _ _ _ _ _ _ _ _ HB) with (j := j) in H; [|assumption]. apply hast_U in H. exact H. Qed.

(** ** Every layer is right *)
Lemma eps_pos : (0 < sqrt mixer_eps)%R.
Proof. apply sqrt_lt_R0. unfold mixer_eps. lra. Qed.
Lemma m_lin sd x0 y w sI sK sJ bI bK bJ : isn x0 (lin_x sd sI sK) (lin_x sd bI bK) -> isn w (lin_w sd sK sJ) (lin_w sd bK bJ) -> isn y (lin_y sd sI sJ) (lin_y sd bI bJ) ->
  mreq y = true -> x0 <> y -> w <> y -> zlen sK = 1 -> zlen bK = 1 -> zlen bI = zlen sI -> zlen bJ = zlen sJ -> linear_ok mreq sd NoTrans x0 y w 1 None sI sK sJ bI bK bJ.
Proof.
  intros (X1 & X2 & X3) (W1 & W2 & W3) (Y1 & Y2 & Y3) Hr N1 N2 L1 L2 L3 L4. split; try (split; assumption).
  - split; [assumption|split; [assumption|split; [assumption|]]]. intros ? H; discriminate.
  - split; [assumption|split; [assumption|split; [assumption|]]]. intros ? H; discriminate.
  - destruct sd; cbn [lin_x] in *; unfold op_dims; rewrite !app_nil_r; split; assumption.
  - destruct sd; cbn [lin_w] in *; split; assumption.
  - destruct sd; cbn [lin_y] in *; split; assumption.
  - intros ? H; discriminate.
Qed.
Lemma m_ln x0 y g be id : isn x0 [C; B; E] [C; bt; E] -> isn y [C; B; E] [C; bt; E] -> isn g [E] [E] -> isn be [E] [E] -> x0 <> y -> g <> y -> be <> y ->
  mreq x0 = true -> mreq y = true -> mreq g = true -> mreq be = true -> (forall i tr, In (i, tr) (mnorm_tmps C B bt E) -> is (Tmp id i) (fst tr) (snd tr)) ->
  ln_ok mreq x0 y g be 2 (sqrt mixer_eps) id.
Proof.
  intros (X1 & X2 & X3) (Y1 & Y2 & Y3) (G1 & G2 & G3) (B1 & B2 & B3) N1 N2 N3 R1 R2 R3 R4 HT.
  pose proof (HT 0%nat _ (or_introl eq_refl)) as (T01 & T02 & T03). pose proof (HT 1%nat _ (or_intror (or_introl eq_refl))) as (T11 & T12 & T13).
  pose proof (HT 2%nat _ (or_intror (or_intror (or_introl eq_refl)))) as (T21 & T22 & T23). pose proof (HT 3%nat _ (or_intror (or_intror (or_intror (or_introl eq_refl))))) as (T31 & T32 & T33).
  unfold mhid in *. cbn [fst snd] in *. unfold vshape, vbase in *.
  split; try assumption; try apply eps_pos.
  - split; congruence.
  - unfold fiber_match. rewrite Y2, Y3, G2, G3. repeat split; try reflexivity; cbn; lia.
  - unfold fiber_match. rewrite Y2, Y3, B2, B3. repeat split; try reflexivity; cbn; lia.
  - intros i Hi. destruct i as [|[|[|[|i]]]]; try assumption. lia.
  - split; congruence. - split; congruence.
  - unfold slice_match. rewrite Y2, Y3, T22, T23. repeat split; try reflexivity; cbn; lia.
  - unfold slice_match. rewrite Y2, Y3, T32, T33. repeat split; try reflexivity; cbn; lia.
Qed.
Lemma m_act x0 y sh ba : isn x0 sh ba -> isn y sh ba -> x0 <> y -> mreq y = true -> act_ok mreq x0 y.
Proof. intros (X1 & X2 & X3) (Y1 & Y2 & Y3) N1 R. unfold vshape, vbase in *. split; try assumption. split; congruence. Qed.
Lemma half1_ok k : (k < n)%nat -> half_ok mreq (mh1 k).
Proof.
  intros Hk. assert (Bi := minp_isn k ltac:(lia)). assert (BB := fun i tr => mblk_isn k i tr Hk). assert (F1 : (3 <= mfirst k)%nat) by (unfold mfirst; lia).
  assert (B0 := BB 0%nat _ eq_refl). rewrite Nat.add_0_r in B0.
  split; unfold mh1; cbv zeta; cbn [h_x h_n h_g h_be h_w1 h_a h_b h_w2 h_y h_id h_sd h_axis h_eps h_sI h_sK h_sJ h_bI h_bK h_bJ].
  - apply m_ln; try (apply mreq_S; lia); try lia; [exact Bi|exact B0|exact (BB 1%nat _ eq_refl)|exact (BB 2%nat _ eq_refl)|].
    intros i tr Hi. pose proof (mtmp_is k 0 i tr Hk) as K. rewrite Nat.add_0_r in K. apply K. unfold mix_tmps. apply in_or_app. left. apply (in_map (fun u => (0%nat, fst u, snd u)) _ (i, tr) Hi).
  - apply m_lin; try (apply mreq_S; lia); try lia; try reflexivity; [exact B0|exact (BB 3%nat _ eq_refl)|exact (BB 4%nat _ eq_refl)].
  - eapply m_act; [exact (BB 4%nat _ eq_refl)|exact (BB 5%nat _ eq_refl)|lia|apply mreq_S; lia].
  - apply m_lin; try (apply mreq_S; lia); try lia; try reflexivity; [exact (BB 5%nat _ eq_refl)|exact (BB 6%nat _ eq_refl)|exact (BB 7%nat _ eq_refl)].
  - destruct Bi as (_ & S1 & S2), (BB 7%nat _ eq_refl) as (_ & S3 & S4). unfold vshape, vbase in *. split; [rewrite S1, S3; reflexivity|rewrite S2, S4; reflexivity].
  - lia.
Qed.
Lemma half2_ok k : (k < n)%nat -> half_ok mreq (mh2 k).
Proof.
  intros Hk. assert (BB := fun i tr => mblk_isn k i tr Hk). assert (F1 : (3 <= mfirst k)%nat) by (unfold mfirst; lia).
  split; unfold mh2; cbv zeta; cbn [h_x h_n h_g h_be h_w1 h_a h_b h_w2 h_y h_id h_sd h_axis h_eps h_sI h_sK h_sJ h_bI h_bK h_bJ].
  - apply m_ln; try (apply mreq_S; lia); try lia; [exact (BB 7%nat _ eq_refl)|exact (BB 8%nat _ eq_refl)|exact (BB 9%nat _ eq_refl)|exact (BB 10%nat _ eq_refl)|].
    intros i tr Hi. pose proof (mtmp_is k 4 i tr Hk) as K. apply K. unfold mix_tmps. apply in_or_app. right. apply (in_map (fun u => (4%nat, fst u, snd u)) _ (i, tr) Hi).
  - apply m_lin; try (apply mreq_S; lia); try lia; try reflexivity; [exact (BB 8%nat _ eq_refl)|exact (BB 11%nat _ eq_refl)|exact (BB 12%nat _ eq_refl)].
  - eapply m_act; [exact (BB 12%nat _ eq_refl)|exact (BB 13%nat _ eq_refl)|lia|apply mreq_S; lia].
  - apply m_lin; try (apply mreq_S; lia); try lia; try reflexivity; [exact (BB 13%nat _ eq_refl)|exact (BB 14%nat _ eq_refl)|exact (BB 15%nat _ eq_refl)].
  - destruct (BB 7%nat _ eq_refl) as (_ & S1 & S2), (BB 15%nat _ eq_refl) as (_ & S3 & S4). unfold vshape, vbase in *. split; [rewrite S1, S3; reflexivity|rewrite S2, S4; reflexivity].
  - lia.
Qed.
Lemma m_gap_ok : gap_ok mreq (F - 1) (F + 1) F C B E C bt E.
Proof.
  assert (Bi := minp_isn n ltac:(lia)). assert (F1 : (3 <= F)%nat) by (unfold mfirst; lia). assert (B0 := mpost_isn 0 _ eq_refl). rewrite Nat.add_0_r in B0. assert (B1 := mpost_isn 1 _ eq_refl).
  destruct Bi as (X1 & X2), B0 as (Y1 & Y2), B1 as (Z1 & Z2). split; try assumption; [|lia]. repeat split; apply mreq_S; lia.
Qed.
Lemma m_first_ok : linear_ok mreq SideL NoTrans 0 2 1 1 None [C; B] [Q] [E] [C; bt] [Qt] [E].
Proof. apply m_lin; try reflexivity; try lia; [exact x_isn|exact (mpre_isn 0 _ eq_refl)|exact (mpre_isn 1 _ eq_refl)]. Qed.
Lemma m_head_ok : linear_ok mreq SideR NoTrans (F + 1) (F + 3) (F + 2) 1 None [B] [E] [V] [bt] [E] [V].
Proof. apply m_lin; try reflexivity; try lia; [exact (mpost_isn 1 _ eq_refl)|exact (mpost_isn 2 _ eq_refl)|exact (mpost_isn 3 _ eq_refl)]. Qed.

(** ** The order *)
Lemma m_mix_outs k : outs (lms (m_mix k)) = mix_outs (mfirst k).
Proof. reflexivity. Qed.
Definition m_outs : list nat := [2%nat] ++ mixers_outs n ++ [F; F + 1; F + 3]%nat.
Lemma m_outs_eq : outs (lms gl) = m_outs.
Proof.
  rewrite gl_eq. unfold outs, m_outs. cbn [map app]. f_equal. rewrite !map_app. f_equal. unfold mixers_outs. generalize (seq 0 n) as l. induction l as [|k l IH]; [reflexivity|].
  cbn [flat_map]. rewrite !map_app, IH. f_equal.
Qed.
Definition mix_params (N : nat) : list nat := [N + 1; N + 2; N + 3; N + 6; N + 9; N + 10; N + 11; N + 14]%nat.
Definition m_params : list nat := [1%nat] ++ flat_map (fun k => mix_params (mfirst k)) (seq 0 n) ++ [(F + 2)%nat].
Lemma mm_params_eq : mm_params (all_objs n) = m_params.
Proof.
  unfold mm_params, all_objs, m_params, mix_objs. cbn [app flat_map obj_params ld_params opt_list]. f_equal. rewrite flat_map_app. cbn [flat_map obj_params head_layer ld_params opt_list app]. f_equal.
  generalize (seq 0 n) as l. induction l as [|k l IH]; [reflexivity|]. cbn [map flat_map]. rewrite IH. f_equal.
Qed.
Lemma in_mblocks (f : nat -> list nat) m : In m (flat_map f (seq 0 n)) <-> exists k, (k < n)%nat /\ In m (f k).
Proof. rewrite in_flat_map. split; intros (k & H1 & H2); exists k; [apply in_seq in H1|split; [apply in_seq|assumption]]; (split; [lia|assumption]) || lia. Qed.
Lemma in_mparams m : In m m_params <-> m = 1%nat \/ (exists k, (k < n)%nat /\ In m (mix_params (mfirst k))) \/ m = (F + 2)%nat.
Proof. clear G HE Hx. unfold m_params. rewrite !in_app_iff, in_mblocks. cbn [In]. intuition lia. Qed.
Lemma in_mouts m : In m m_outs <-> m = 2%nat \/ (exists k, (k < n)%nat /\ In m (mix_outs (mfirst k))) \/ m = F \/ m = (F + 1)%nat \/ m = (F + 3)%nat.
Proof. clear G HE Hx. unfold m_outs, mixers_outs. rewrite !in_app_iff, in_mblocks. cbn [In]. intuition lia. Qed.
Lemma mparams_range k m : In m (mix_params (mfirst k)) -> (mfirst k <= m < mfirst (S k))%nat.
Proof. unfold mix_params, mfirst. cbn [In]. lia. Qed.
Lemma mouts_range k m : In m (mix_outs (mfirst k)) -> (mfirst k <= m < mfirst (S k))%nat.
Proof. unfold mix_outs, mfirst. cbn [In]. lia. Qed.
Lemma mblocks_range (f : nat -> list nat) m k : (forall j m, In m (f j) -> (mfirst j <= m < mfirst (S j))%nat) -> In m (flat_map f (seq 0 k)) -> (3 <= m < mfirst k)%nat.
Proof. intros Hf Hm. apply in_flat_map in Hm as (j & Hj & Hm). apply in_seq in Hj. apply Hf in Hm. unfold mfirst in *. lia. Qed.
Lemma F_ge : (3 <= F)%nat. Proof. unfold mfirst. lia. Qed.
Lemma mparams_outs m : In m (0%nat :: m_params) -> ~ In m m_outs.
Proof.
  intros HP HO. apply in_mouts in HO. assert (F0 := F_ge).
  assert (HO' : m = 2%nat \/ (exists k, (k < n)%nat /\ In m (mix_outs (mfirst k)) /\ (mfirst k <= m < mfirst (S k))%nat) \/ m = F \/ m = (F + 1)%nat \/ m = (F + 3)%nat).
  { destruct HO as [?|[(k & H1 & H2)|?]]; [lia| |lia]. right; left. exists k. split; [assumption|split; [assumption|apply mouts_range; assumption]]. }
  assert (HP' : m = 0%nat \/ m = 1%nat \/ (exists k, (k < n)%nat /\ In m (mix_params (mfirst k)) /\ (mfirst k <= m < mfirst (S k))%nat) \/ m = (F + 2)%nat).
  { destruct HP as [<-|HP]; [lia|]. apply in_mparams in HP as [?|[(k & H1 & H2)|?]]; [lia| |lia]. right; right; left. exists k. split; [assumption|split; [assumption|apply mparams_range; assumption]]. }
  clear HP HO. unfold mfirst in *. destruct HP' as [?|[?|[(k & H1 & H2 & H3)|?]]]; destruct HO' as [?|[(j & J1 & J2 & J3)|?]]; try lia.
  assert (j = k) by lia. subst j. unfold mix_params, mix_outs in *. cbn [In] in *. clear - H2 J2. lia.
Qed.
Ltac ss := repeat (first [apply SSorted_cons|apply SSorted_nil|apply Forall_cons|apply Forall_nil]); lia.
Lemma mouts_sorted : StronglySorted lt m_outs.
Proof.
  assert (F0 := F_ge). unfold m_outs. apply app_sorted; [ss| |].
  - apply app_sorted; [|ss|].
    + unfold mixers_outs. generalize n as k. induction k as [|k IH]; [constructor|]. rewrite seq_last. apply app_sorted; [assumption| |].
      * unfold mix_outs. ss.
      * intros u y Hu Hy. apply (mblocks_range (fun i => mix_outs (mfirst i)) u k (fun j m => mouts_range j m)) in Hu. apply mouts_range in Hy. lia.
    + intros u y Hu Hy. apply (mblocks_range (fun i => mix_outs (mfirst i)) u n (fun j m => mouts_range j m)) in Hu. cbn [In] in Hy. lia.
  - intros u y Hu Hy. apply in_app_or in Hy. cbn [In] in Hu.
    destruct Hy as [Hy|Hy]; [apply (mblocks_range (fun i => mix_outs (mfirst i)) y n (fun j m => mouts_range j m)) in Hy|cbn [In] in Hy]; lia.
Qed.
Ltac nn := repeat (first [apply NoDup_cons|apply NoDup_nil]); cbn [In]; lia.
Lemma mparams_nodup : NoDup (0%nat :: m_params).
Proof.
  assert (F0 := F_ge). change (0%nat :: m_params) with ([0; 1]%nat ++ flat_map (fun k => mix_params (mfirst k)) (seq 0 n) ++ [(F + 2)%nat]). apply app_nodup; [nn| |].
  - apply app_nodup; [|nn|].
    + generalize n as k. induction k as [|k IH]; [constructor|]. rewrite seq_last. apply app_nodup; [assumption| |].
      * unfold mix_params. nn.
      * intros u Hu Hy. apply (mblocks_range (fun i => mix_params (mfirst i)) u k (fun j m => mparams_range j m)) in Hu. apply mparams_range in Hy. lia.
    + intros u Hu Hy. apply (mblocks_range (fun i => mix_params (mfirst i)) u n (fun j m => mparams_range j m)) in Hu. cbn [In] in Hy. lia.
  - intros u Hu Hy. apply in_app_or in Hy. cbn [In] in Hu.
    destruct Hy as [Hy|Hy]; [apply (mblocks_range (fun i => mix_params (mfirst i)) u n (fun j m => mparams_range j m)) in Hy|cbn [In] in Hy]; lia.
Qed.
Lemma m_ordered : ordered (lms gl) (0%nat :: m_params).
Proof.
  apply ordered_sorted; rewrite ?m_outs_eq; [apply mouts_sorted| |exact mparams_outs]. intros l i Hl Hi.
  assert (F0 := F_ge).
  assert (PI : forall k i, (k < n)%nat -> In i (mix_params (mfirst k)) -> In i (0%nat :: m_params)) by (intros k i0 H1 H2; right; apply in_mparams; right; left; exists k; auto).
  assert (OI : forall k i, (k < n)%nat -> In i (mix_outs (mfirst k)) -> In i m_outs) by (intros k i0 H1 H2; apply in_mouts; right; left; exists k; auto).
  assert (NI : forall k, (k <= n)%nat -> In (mfirst k - 1)%nat m_outs).
  { intros k Hk. destruct k as [|k]; [apply in_mouts; left; reflexivity|]. apply (OI k); [lia|]. unfold mix_outs, mfirst. cbn [In]. lia. }
  rewrite gl_eq in Hl. cbn [map] in Hl. rewrite map_app, in_app_iff in Hl || (destruct Hl as [Hl|Hl]; [|rewrite map_app, in_app_iff in Hl]).
  - subst l. cbn [ly_m m_first linear_layer ml_ins opt_list In] in Hi. left. destruct Hi as [<-|[<-|[]]]; [left; reflexivity|right; apply in_mparams; lia].
  - destruct Hl as [Hl|Hl].
    + rewrite in_map_iff in Hl. destruct Hl as (ll & <- & Hl). apply in_flat_map in Hl as (k & Hk & Hl). apply in_seq in Hk.
      assert (Hk' : (k < n)%nat) by lia. specialize (PI k). specialize (OI k). specialize (NI k ltac:(lia)).
      assert (F1 : (3 <= mfirst k)%nat) by (unfold mfirst; lia).
      assert (QQ : forall m q, (q < 16)%nat -> (i = mfirst k + q)%nat -> In q [1;2;3;6;9;10;11;14]%nat \/ (In q [0;4;5;7;8;12;13;15]%nat /\ (i < m)%nat) -> In i (0%nat :: m_params) \/ (In i m_outs /\ (i < m)%nat)).
      { intros m q _ Ei [Hq|[Hq Hm]]; rewrite Ei in *; [left; apply PI|right; split; [apply OI|]]; try assumption.
        - unfold mix_params. cbn [In] in Hq |- *. clear - Hq. lia.
        - unfold mix_outs. cbn [In] in Hq |- *. clear - Hq. lia. }
      cbn [m_mix h_layers app In] in Hl.
      destruct Hl as [<-|[<-|[<-|[<-|[<-|[<-|[<-|[<-|[]]]]]]]]];
        cbn [ly_m ml_ins ml_out h_norm h_lin1 h_act h_res ln_layer linear_layer act_layer mh1 mh2 h_x h_n h_g h_be h_w1 h_a h_b h_w2 h_y opt_list In] in Hi |- *;
        repeat (destruct Hi as [Hi|Hi]; [first [subst i; right; split; [exact NI|clear - F1; lia]|eapply (QQ _ (i - mfirst k)%nat); subst i; clear; cbn [In]; lia]|]); destruct Hi.
    + cbn [map In] in Hl. destruct Hl as [<-|[<-|[<-|[]]]]; cbn [ly_m ml_ins ml_out mean_layer tr_layer m_head linear_layer opt_list In] in Hi |- *.
      * destruct Hi as [<-|[]]. right. split; [apply NI; lia|lia].
      * destruct Hi as [<-|[]]. right. split; [apply in_mouts; lia|lia].
      * destruct Hi as [<-|[<-|[]]]; [right; split; [apply in_mouts; lia|lia]|left; right; apply in_mparams; lia].
Qed.
Lemma m_ids : ids gl = seq 0 (1 + 8 * n) ++ [3 + 8 * n; 4 + 8 * n; 1 + 8 * n]%nat.
Proof.
  rewrite gl_eq. cbn [map m_first linear_layer ly_id]. rewrite map_app. cbn [map m_head linear_layer mean_layer tr_layer ly_id]. cbn [Nat.add seq]. rewrite <- app_comm_cons. f_equal. f_equal.
  generalize n as k. induction k as [|k IH]; [reflexivity|]. rewrite seq_last, map_app, IH. replace (8 * S k)%nat with (8 * k + 8)%nat by lia. rewrite seq_app. f_equal.
  cbn [m_mix h_layers app map h_norm h_lin1 h_act h_res ln_layer linear_layer act_layer ly_id mh1 mh2 h_id seq Nat.add]. do 4 f_equal. repeat f_equal; lia.
Qed.
Lemma m_node m : (m < F + 4)%nat -> node_ok mreq m.
Proof.
  intros Hm. destruct (Nat.lt_ge_cases m 3) as [H3|H3].
  - destruct m as [|[|[|m]]]; [apply x_isn|apply (mpre_isn 0 _ eq_refl)|apply (mpre_isn 1 _ eq_refl)|lia].
  - destruct (Nat.lt_ge_cases m F) as [HL|HL].
    + pose (k := ((m - 3) / 16)%nat). assert (Ek : m = (mfirst k + (m - 3) mod 16)%nat) by (unfold mfirst, k; pose proof (Nat.div_mod (m - 3) 16); lia).
      assert (Hr : ((m - 3) mod 16 < 16)%nat) by (apply Nat.mod_upper_bound; lia). assert (Hk : (k < n)%nat) by (unfold mfirst in *; lia).
      rewrite Ek. destruct (nth_error (mix_nodes C B bt E) ((m - 3) mod 16)) as [tr|] eqn:Em; [apply (mblk_isn k _ tr Hk Em)|]. apply nth_error_None in Em. cbn [List.length mix_nodes app] in Em. lia.
    + replace m with (F + (m - F))%nat by lia. destruct (nth_error (mix_post_nodes B bt E V) (m - F)) as [tr|] eqn:Em; [apply (mpost_isn _ tr Em)|].
      apply nth_error_None in Em. cbn [List.length mix_post_nodes] in Em. lia.
Qed.
Lemma m_node_lt m : In m (m_outs ++ 0%nat :: m_params) -> (m < F + 4)%nat.
Proof.
  intros Hm. apply in_app_or in Hm. assert (F0 := F_ge). destruct Hm as [Hm|[<-|Hm]]; [apply in_mouts in Hm|lia|apply in_mparams in Hm].
  - destruct Hm as [?|[(k & H1 & H2)|?]]; [lia| |lia]. apply mouts_range in H2. unfold mfirst in *. lia.
  - destruct Hm as [?|[(k & H1 & H2)|?]]; [lia| |lia]. apply mparams_range in H2. unfold mfirst in *. lia.
Qed.

(** ** The model as pieces *)
Lemma m_mix_ids k : ids (m_mix k) = seq (1 + 8 * k) 8.
Proof. cbn [m_mix h_layers app map h_norm h_lin1 h_act h_res ln_layer linear_layer act_layer ly_id mh1 mh2 h_id seq Nat.add]. repeat f_equal; lia. Qed.
Lemma m_mixer_ok k : (k < n)%nat -> mixer_ok mreq (mh1 k) (mh2 k) C B E (C * 4) (E * 4).
Proof.
  intros Hk. split; try reflexivity; try (repeat split; reflexivity).
  - apply half1_ok; assumption. - apply half2_ok; assumption.
  - apply (minp_isn k). lia.
  - change (NoDup (ids (m_mix k))). rewrite m_mix_ids. apply seq_NoDup.
  - unfold mixer_ins, mixer_hid. cbn [mh1 mh2 h_x h_n h_g h_be h_w1 h_a h_b h_w2 h_y app]. assert (F1 : (3 <= mfirst k)%nat) by (unfold mfirst; lia). clear - F1. nn.
Qed.
Lemma only_here_app gs gs' : (forall g, In g gs -> sg_zero g = []) -> only_here gs' -> only_here (gs ++ gs').
Proof.
  intros Hz H. induction gs as [|g gs IH]; [assumption|]. cbn [app only_here]. split; [|apply IH; intros; apply Hz; right; assumption].
  rewrite (Hz g (or_introl eq_refl)). intros ? [].
Qed.
Lemma m_zero : all_zero m_segs = [(F - 1)%nat; F].
Proof.
  unfold all_zero, m_segs. cbn [flat_map single sg_zero app]. rewrite flat_map_app. replace (flat_map sg_zero (map (fun k => mixer_segment mreq (mh1 k) (mh2 k)) (seq 0 n))) with (@nil nat); [reflexivity|].
  generalize (seq 0 n) as l. induction l as [|k l IH]; [reflexivity|]. cbn [map flat_map mixer_segment sg_zero app]. exact IH.
Qed.
Lemma m_segs_ok : segs_ok mreq m_segs (0%nat :: m_params) (F + 3) (2 + 8 * n).
Proof.
  assert (F0 := F_ge). split.
  - unfold m_segs. constructor; [apply single_good; split; [eapply linear_layer_ok; exact m_first_ok|eapply linear_vjp; exact m_first_ok]|]. apply Forall_app; split.
    + apply Forall_map, Forall_forall. intros k Hk. apply in_seq in Hk. assert (Hk' : (k < n)%nat) by lia. pose proof (m_mixer_ok k Hk') as HM.
      eapply mixer_good; [apply half1_ok; assumption|apply half2_ok; assumption|reflexivity|apply (mk_ids _ _ _ _ _ _ _ _ HM)|apply (ordered_mixer mreq _ _ _ _ _ _ _ HM)].
    + constructor; [eapply gap_good; exact m_gap_ok|]. constructor; [apply single_good; split; [eapply linear_layer_ok; exact m_head_ok|eapply linear_vjp; exact m_head_ok]|constructor].
  - rewrite m_ids. constructor.
    + intros K. apply in_app_or in K as [K|K]; [apply in_seq in K; lia|cbn [In] in K; lia].
    + apply app_nodup; [apply seq_NoDup|nn|]. intros m K1 K2. apply in_seq in K1. cbn [In] in K2. lia.
  - apply m_ordered.
  - apply mparams_nodup.
  - rewrite m_outs_eq. apply in_mouts. lia.
  - unfold m_segs. change (only_here ((single m_first :: map (fun k => mixer_segment mreq (mh1 k) (mh2 k)) (seq 0 n)) ++ [m_gap; single m_head])). apply only_here_app.
    + intros g [<-|Hg]; [reflexivity|]. apply in_map_iff in Hg as (k & <- & _). reflexivity.
    + cbn [only_here]. split; [|split; [intros ? []|exact Logic.I]]. intros m Hm. cbn [m_gap gap_segment sg_zero In] in Hm. cbn [all_layers flat_map single sg_layers app map]. split.
      * cbn [outs map ml_out ly_m m_head linear_layer In]. lia.
      * intros l j [<-|[]] Hj. cbn [ly_m m_head linear_layer opt_list] in *. unfold arity, inp in *. cbn [ml_ins List.length opt_list] in *. destruct j as [|[|j]]; cbn [nth]; lia.
  - intros m Hm. rewrite m_zero in Hm. rewrite m_outs_eq. cbn [In] in Hm. split; [|lia]. apply in_mouts.
    destruct Hm as [Hm|[Hm|[]]]; [|lia]. destruct n as [|k] eqn:En; [left; subst m; reflexivity|]. right; left. exists k. split; [lia|]. subst m. unfold mix_outs, mfirst. cbn [In]. lia.
  - rewrite m_outs_eq. intros m Hm. apply m_node, m_node_lt. exact Hm.
Qed.

(** ** Values *)
Local Close Scope Z_scope.
Local Open Scope R_scope.
Lemma m_reads : Forall reads_inputs (lms gl).
Proof.
  rewrite gl_eq. cbn [map]. constructor; [apply linear_reads|]. rewrite map_app. apply Forall_app; split.
  - rewrite Forall_forall. intros l Hl. apply in_map_iff in Hl as (ll & <- & Hl). apply in_flat_map in Hl as (k & _ & Hl). pose proof (half_reads mreq (mh1 k)) as H1. pose proof (half_reads mreq (mh2 k)) as H2.
    rewrite Forall_forall in H1, H2. apply in_app_or in Hl as [Hl|Hl]; [apply H1|apply H2]; apply in_map; assumption.
  - cbn [map]. constructor; [|constructor; [|constructor; [apply linear_reads|constructor]]].
    + intros vs vs' H. split; [|auto]. cbn [ly_m mean_layer ml_F]. rewrite (H 0%nat) by (cbn; lia). reflexivity.
    + intros vs vs' H. split; [|auto]. cbn [ly_m tr_layer ml_F]. rewrite (H 0%nat) by (cbn; lia). reflexivity.
Qed.
Section Values.
Variables (X : arr) (P : nat -> arr).
Definition xp : nat -> arr := fun j => match j with O => X | S j => P j end.
Notation e0 := (penv (0%nat :: m_params) xp).
Definition mval : nat -> arr := eval (lms gl) e0.
Lemma mval_fix l : In l gl -> mval (ml_out (ly_m l)) = ml_F (ly_m l) (args (ly_m l) mval).
Proof. intros Hl. apply (eval_fix _ _ e0 m_ordered m_reads). apply in_map. assumption. Qed.
Lemma mval_leaf j : (j < List.length (0%nat :: m_params))%nat -> mval (nth j (0%nat :: m_params) O) = xp j.
Proof.
  intros Hj. unfold mval. rewrite eval_other by (eapply ordered_fresh; [apply m_ordered|apply nth_In; assumption]).
  unfold penv. rewrite index_nth by (assumption || apply mparams_nodup). reflexivity.
Qed.
Lemma mparams_len : List.length m_params = (2 + 8 * n)%nat.
Proof. unfold m_params. rewrite !app_length. rewrite (proj1 (nth_blocks (fun k => mix_params (mfirst k)) 8 (fun _ => eq_refl) n)). cbn [List.length]. lia. Qed.
Lemma mval_block k r m q : (k < n)%nat -> (r < 8)%nat -> nth r (mix_params (mfirst k)) O = m -> q = (1 + 8 * k + r)%nat -> mval m = P q.
Proof.
  intros Hk Hr <- ->. change (P (1 + 8 * k + r)) with (xp (S (1 + 8 * k + r))). rewrite <- mval_leaf by (cbn [List.length]; rewrite mparams_len; lia). f_equal. unfold m_params.
  change (1 + 8 * k + r)%nat with (S (8 * k + r)). cbn [app nth].
  destruct (nth_blocks (fun k => mix_params (mfirst k)) 8 (fun _ => eq_refl) n) as [E1 E2]. rewrite app_nth1 by lia. symmetry. apply E2; assumption.
Qed.
Lemma mval_head : mval (F + 2)%nat = P (1 + 8 * n)%nat.
Proof.
  change (P (1 + 8 * n)) with (xp (S (1 + 8 * n))). rewrite <- mval_leaf by (cbn [List.length]; rewrite mparams_len; lia). f_equal. unfold m_params.
  change (1 + 8 * n)%nat with (S (8 * n)). cbn [app nth]. destruct (nth_blocks (fun k => mix_params (mfirst k)) 8 (fun _ => eq_refl) n) as [E1 E2]. rewrite app_nth2 by lia. rewrite E1, Nat.sub_diag. reflexivity.
Qed.
Lemma eps_sq : sqrt mixer_eps * sqrt mixer_eps = mixer_eps.
Proof. apply sqrt_sqrt. unfold mixer_eps. lra. Qed.
Notation rep f x := (rep3 C B E f x).
Lemma v_patches : rep (mval 2%nat) (embedded_patches Q X P).
Proof.
  destruct G as [pC pB pbt pE pQ pQt pV].
  assert (E0 : mval 0%nat = X) by (apply (mval_leaf 0); cbn; lia). assert (E1 : mval 1%nat = P 0%nat) by (apply (mval_leaf 1); cbn [List.length]; rewrite mparams_len; lia).
  assert (Ev := mval_fix m_first ltac:(rewrite gl_eq; left; reflexivity)). cbn [ly_m m_first linear_layer ml_out ml_F] in Ev. rewrite Ev. intros c t p Hc Ht Hp.
  unfold lin_F. change [c; t; p] with ([c; t] ++ [p]). rewrite matmul_0 by (inbl; assumption). rewrite Rplus_0_r, sum1 by assumption. unfold embedded_patches. apply Rsum_ext. intros q Hq.
  app_norm. unfold args, inp. cbn [nth ml_ins ly_m m_first linear_layer]. rewrite E0, E1. reflexivity.
Qed.
Lemma v_mixer k x0 : (k < n)%nat -> rep (mval (mfirst k - 1)%nat) x0 -> let p := (1 + 8 * k)%nat in
  rep (mval (mfirst k + 15)%nat) (mixed C E (4 * C) (4 * E) mixer_eps (P p) (P (p + 1)%nat) (P (p + 2)%nat) (P (p + 3)%nat) (P (p + 4)%nat) (P (p + 5)%nat) (P (p + 6)%nat) (P (p + 7)%nat) x0).
Proof.
  intros Hk Hr p. destruct G as [pC pB pbt pE pQ pQt pV].
  assert (Hin : forall l, In l (m_mix k) -> fixes mval l).
  { intros l Hl. apply mval_fix. rewrite gl_eq. right. apply in_or_app. left. apply in_flat_map. exists k. split; [apply in_seq; lia|assumption]. }
  assert (F1 : Forall (fixes mval) (h_layers mreq (mh1 k))) by (apply Forall_forall; intros l Hl; apply Hin, in_or_app; left; assumption).
  assert (F2 : Forall (fixes mval) (h_layers mreq (mh2 k))) by (apply Forall_forall; intros l Hl; apply Hin, in_or_app; right; assumption).
  assert (S1 : vshape (mfirst k) = [C; B; E]). { pose proof (proj1 (proj2 (mblk_isn k 0 _ Hk eq_refl))) as D. rewrite Nat.add_0_r in D. exact D. }
  assert (S2 : vshape (mfirst k + 8) = [C; B; E]) by exact (proj1 (proj2 (mblk_isn k 8 _ Hk eq_refl))).
  assert (J1 : (0 < C * 4)%Z) by lia. assert (J2 : (0 < E * 4)%Z) by lia.
  pose proof (half_R mreq C B E pC mval (mh1 k) x0 (C * 4)%Z F1 eq_refl eq_refl eq_refl eq_refl J1 S1 eq_refl eps_pos Hr) as R1. cbn [mh1 h_eps h_g h_be h_w1 h_w2 h_y] in R1.
  pose proof (half_L mreq C B E pE mval (mh2 k) _ (E * 4)%Z F2 eq_refl eq_refl eq_refl eq_refl J2 S2 eq_refl eps_pos R1) as R2. cbn [mh2 h_eps h_g h_be h_w1 h_w2 h_y] in R2.
  rewrite eps_sq in R2. rewrite (Z.mul_comm C 4), (Z.mul_comm E 4) in R2.
  rewrite (mval_block k 0 (mfirst k + 1) p) , (mval_block k 1 (mfirst k + 2) (p + 1)), (mval_block k 2 (mfirst k + 3) (p + 2)), (mval_block k 3 (mfirst k + 6) (p + 3)),
    (mval_block k 4 (mfirst k + 9) (p + 4)), (mval_block k 5 (mfirst k + 10) (p + 5)), (mval_block k 6 (mfirst k + 11) (p + 6)), (mval_block k 7 (mfirst k + 14) (p + 7)) in R2 by (assumption || reflexivity || (unfold p; lia)).
  exact R2.
Qed.
Notation St k := (mixer_states C E Q mixer_eps X P k).
Lemma v_mixed k : (k <= n)%nat -> rep (mval (mfirst k - 1)%nat) (St k).
Proof.
  induction k as [|k IH]; intros Hk; [exact v_patches|]. cbn [mixer_states]. replace (mfirst (S k) - 1)%nat with (mfirst k + 15)%nat by (unfold mfirst; lia).
  apply v_mixer; [lia|]. apply IH. lia.
Qed.
Lemma v_logits v t : (0 <= v < V)%Z -> (0 <= t < B)%Z -> mval (F + 3)%nat [v; t] = mixer_logits C E Q mixer_eps X P n v t.
Proof.
  intros Hv Ht. destruct G as [pC pB pbt pE pQ pQt pV].
  assert (IN : forall l, In l [mean_layer (F - 1) F (3 + 8 * n) C; tr_layer F (F + 1) (4 + 8 * n); m_head] -> In l gl) by (intros l Hl; rewrite gl_eq; right; apply in_or_app; right; assumption).
  assert (E1 := mval_fix _ (IN _ (or_introl eq_refl))). assert (E2 := mval_fix _ (IN _ (or_intror (or_introl eq_refl)))). assert (E3 := mval_fix _ (IN _ (or_intror (or_intror (or_introl eq_refl))))).
  cbn [ly_m mean_layer tr_layer m_head linear_layer ml_out ml_F] in E1, E2, E3. rewrite E3. unfold lin_F. change [v; t] with ([v] ++ [t]). rewrite matmul_0 by (inbl; assumption). rewrite Rplus_0_r, sum1 by assumption.
  unfold mixer_logits. apply Rsum_ext. intros p Hp. app_norm. unfold args, inp. cbn [nth ml_ins ly_m m_head linear_layer]. rewrite mval_head. f_equal.
  rewrite E2. unfold args, inp. cbn [nth ml_ins ly_m tr_layer flip app]. rewrite E1. unfold args, inp. cbn [nth ml_ins ly_m mean_layer]. unfold pooled. unfold Rdiv. rewrite Rmult_comm. f_equal.
  apply Rsum_ext. intros c Hc. apply (v_mixed n); [lia|assumption|assumption|assumption].
Qed.
Lemma m_dom : dom (lms gl) e0.
Proof.
  apply (dom_fix _ _ _ m_ordered m_reads). intros l Hl. apply in_map_iff in Hl as (ll & <- & Hl). rewrite gl_eq in Hl. destruct Hl as [<-|Hl]; [exact Logic.I|]. apply in_app_or in Hl as [Hl|Hl].
  - apply in_flat_map in Hl as (k & _ & Hl). cbn [m_mix h_layers app In] in Hl. destruct Hl as [<-|[<-|[<-|[<-|[<-|[<-|[<-|[<-|[]]]]]]]]]; try exact Logic.I; intros ? ?; exact Logic.I.
  - destruct Hl as [<-|[<-|[<-|[]]]]; exact Logic.I.
Qed.
End Values.
End Mix.
