(** * C65: training of MlpMixer, from the constructors to the trained parameters *)
From Coq Require Import Reals Lra FunctionalExtensionality Sorted.
From Coquelicot Require Import Coquelicot.
From Verif Require Import Base Spec Geometry Traits TraitsProofs Runtime Ops RealOps TensorSem OneOut ElemOps ElemGeneric Concrete Axis SliceGeo Sequence XReals NdRuns AnyRuns Serial2 RSum AttnSpec MatOps PropElem IntCopy CrossEntropy XTriples HasRuns TapeMath VjpMath Tape PyLayers PyLinear PySimple PyNorm AttMath PyAttn Backprop CeLoss PropLayers PropModel PyTrain PropTrain PyAdam PropAdam PyModels BuildEnv GptBuild BuildModel OptBuild GptSpec GptModel GptRun PropGpt GptTrain Segments SegDiff PyMixer MixerRuns MixSpec MixerSeg PropMixer PyMixModels MixBuild MixModel PropMixModel SegTrain OptState.
Local Close Scope Z_scope.
Local Open Scope R_scope.

(** ** Model *)
(** pipeline.py:50-71 for the built model with the loss [labels], scale [a].  The tensors of the
    optimizer are named from [lid b + 3] on. *)
Definition mixer_loss (a : R) (os : list mobj) (labels : tensor) (b : build) : res (list (task XR)) :=
  crossentropy_calc (Fin a) (bt b (Val (last_out os))) labels (bt b (Tmp (lid b) 1)) (bt b (Tmp (lid b) 2)) (loss_val b) (bt b (Grad (last_out os))).
Definition mixer_batch (a : R) (o : optimizer) (os : list mobj) (x labels : tensor) (b : build) (it : Z) (mbs : list fsample) : res (list (task XR)) :=
  train_batch (map (bmom mreq b) (mm_params os)) (map (bmom mreq b) (mm_acts os ++ flat_map obj_temps os)) (loss_val b) x labels
    (map (obj_py mreq b) os) (mixer_loss a os labels b) (map (fun d => (fx d, fy d)) mbs) (opt_step mreq b o (lid b + 3) (mm_params os) it).
(** pipeline.py:41-71: the batches of all epochs in order *)
Fixpoint mixer_train (a : R) (o : optimizer) (os : list mobj) (x labels : tensor) (b : build) (it : Z) (batches : list (list fsample)) : res (list (task XR)) :=
  match batches with
  | [] => Ok []
  | mbs :: rest => then_ (mixer_batch a o os x labels b it mbs) (mixer_train a o os x labels b (it + 1) rest)
  end.

(** ** What is asked of the minibatches *)
(** the tensors of the minibatch [d]: input and labels of the shapes and tiles of [x] and [labels],
    apart from all others; labels in range *)
Record mdata_ok (labels : tensor) (C B bt Q Qt V : Z) (b : build) (d : fsample) : Prop := {
  md_x : wf_tensor (fx d) /\ t_shape (fx d) = [C; B; Q] /\ t_base (fx d) = [C; bt; Qt];
  md_y : wf_tensor (fy d) /\ t_shape (fy d) = [B] /\ t_base (fy d) = [bt];
  md_dx : disj (fx d) labels /\ forall v t, b_mem b v = Some t -> disj (fx d) t;
  md_dy : disj (fy d) labels /\ forall v t, b_mem b v = Some t -> disj (fy d) t;
  md_rng : forall t, (0 <= t < B)%Z -> (0 <= flab d [t] < V)%Z
}.
(** All tensors made are allocated, the tensors of the minibatches hold their contents, the
    parameters hold [P].  Nothing is asked of the contents of [x], [labels], of gradients,
    activations, loss and of the tensors of the optimizer. *)
Record mixer_ready (os : list mobj) (labels : tensor) (b : build) (C B Q : Z) (data : list fsample) (np : nat) (P : nat -> arr) (s : store XR) : Prop := {
  mr_alloc : forall v t, b_mem b v = Some t -> stored KF s t;
  mr_labels : stored KI s labels;
  mr_data : forall d, In d data -> stored KF s (fx d) /\ stored KI s (fy d) /\
    (forall c t q, (0 <= c < C)%Z -> (0 <= t < B)%Z -> (0 <= q < Q)%Z -> elem s (fx d) [c; t; q] = Fin (fval d [c; t; q])) /\
    (forall t, (0 <= t < B)%Z -> ielem s (fy d) [t] = flab d [t]);
  mr_params : forall j idx, (j < np)%nat -> inb (t_shape (mpval os b j)) idx -> elem s (mpval os b j) idx = Fin (P j idx)
}.

Section Train.
Variables (C B bt E Q Qt V : Z) (x labels : tensor) (n : nat) (lo : Z) (b : build).
Hypothesis HG : mdims C B bt E Q Qt V.
Hypothesis HB : mbuilt C B bt E Q Qt V x n lo b.
Hypothesis Hx : t_shape x = [C; B; Q] /\ t_base x = [C; bt; Qt].
Hypothesis Hlabels : t_shape labels = [B] /\ t_base labels = [bt].
Hypothesis Hwf : wf_tensor labels.
Hypothesis Hdisj : forall v t, b_mem b v = Some t -> disj labels t.
Notation F := (mfirst n).
Hypothesis Hce : hast b (Tmp (2 + 8 * n) 0) [] [] /\ hast b (Tmp (2 + 8 * n) 1) [2; B]%Z [2; bt]%Z /\ hast b (Tmp (2 + 8 * n) 2) [B] [bt].
Variables (data : list fsample) (a : R) (o : optimizer).
Hypothesis Hok : opt_ok o.
Hypothesis Hdata : forall d, In d data -> mdata_ok labels C B bt Q Qt V b d.
Notation kid := (5 + 8 * n)%nat.
Hypothesis Hopt : forall p j sh ba, In p (m_params n) -> In j (opt_kinds o kid) -> hast b (Val p) sh ba -> hast b (Tmp j p) sh ba.
Notation os := (all_objs n).
Notation np := (2 + 8 * n)%nat.

Definition tcs : list const := CStored labels :: flat_map (fun d => [CReal (fx d) (fval d); CInt (fy d) (flab d)]) data.
Lemma in_tcs k : In k tcs -> k = CStored labels \/ exists d, In d data /\ (k = CReal (fx d) (fval d) \/ k = CInt (fy d) (flab d)).
Proof. intros [<-|H]; [left; reflexivity|right]. apply in_flat_map in H as (d & H1 & [<-|[<-|[]]]); exists d; auto. Qed.
Lemma tenv_ok : benv_ok b tcs.
Proof.
  destruct (mb_inv _ _ _ _ _ _ _ _ _ _ _ HB) as [i1 i2 i3 i4 i5]. split; [exact i2|exact i4| |].
  - intros k Hk. apply in_tcs in Hk as [->|(d & Hd & [->| ->])]; [assumption|apply (Hdata d Hd)..].
  - intros k v t Hk Hv. apply in_tcs in Hk as [->|(d & Hd & [->| ->])]; cbn [c_tensor]; [eapply Hdisj; eassumption|apply (md_dx _ _ _ _ _ _ _ _ _ (Hdata d Hd)) with (v := v)|apply (md_dy _ _ _ _ _ _ _ _ _ (Hdata d Hd)) with (v := v)]; assumption.
Qed.
Instance tenv : env := benv b tcs tenv_ok.
Notation gs := (m_segs C B bt E Q V n b tcs tenv_ok).
Notation gl := (all_layers gs).
Notation ps := (m_params n).
Lemma t_ok : segs_ok mreq gs (0%nat :: ps) (F + 3) (2 + 8 * n).
Proof. exact (m_segs_ok C B bt E Q Qt V x n lo b tcs HB tenv_ok Hx). Qed.
Lemma t_outs : outs (lms gl) = m_outs n.
Proof. apply m_outs_eq. Qed.
Lemma t_req p : In p ps -> mreq p = true.
Proof. intros Hp. apply mreq_S. pose proof (mparams_nodup n) as PD. destruct p; [exfalso; inversion PD; contradiction|lia]. Qed.
Lemma t_ce : ce_shape mreq (F + 3) (2 + 8 * n) labels V [B].
Proof.
  destruct Hce as (C0 & C1 & C2). destruct (mb_post _ _ _ _ _ _ _ _ _ _ _ HB 3%nat _ eq_refl) as [N1 N2]. cbn [fst snd] in N1, N2.
  destruct (hast_U b _ _ _ C0) as (U0 & S0 & B0), (hast_U b _ _ _ C1) as (U1 & S1 & B1), (hast_U b _ _ _ C2) as (U2 & S2 & B2),
    (hast_U b _ _ _ N1) as (U3 & S3 & B3), (hast_U b _ _ _ N2) as (U4 & S4 & B4).
  destruct Hlabels as [El1 El2].
  split.
  - apply (sk_nodes _ _ _ _ _ t_ok). apply in_or_app. left. apply (sk_o _ _ _ _ _ t_ok).
  - apply mreq_S. lia.
  - intros i Hi. destruct i as [|[|[|i]]]; [exact U0|exact U1|exact U2|lia].
  - apply Hwf.
  - intros v Hv. destruct (bU_inv b v Hv) as (t & Et & Eb). change (A v) with (PyModels.bt b v). rewrite Eb. apply (Hdisj v t Et).
  - split; cbn [A tenv benv]; rewrite ?El2; try (split; assumption); try assumption. split; congruence.
Qed.
Lemma t_x : A (Val 0) = x.
Proof. cbn [A tenv benv]. unfold PyModels.bt. rewrite (mb_x _ _ _ _ _ _ _ _ _ _ _ HB). reflexivity. Qed.
Lemma t_shapes : map vshape ps = mixer_shapes C E Q V n.
Proof. rewrite <- (mshapes_eq C B bt E Q Qt V x n lo b HB), (mm_params_eq n). reflexivity. Qed.
Lemma t_K s d : @K tenv s -> In d data -> c_holds s (CReal (fx d) (fval d)) /\ c_holds s (CInt (fy d) (flab d)).
Proof.
  intros HK Hd. cbn [K tenv benv] in HK. unfold bK in HK. rewrite Forall_forall in HK. split; apply HK; right; apply in_flat_map; exists d; (split; [assumption|]); [left|right; left]; reflexivity.
Qed.
(** the sum of the losses of a batch, in the words of the specification *)
Notation model X P := (mixer_logits C E Q mixer_eps X P n).
Definition batch_loss (mbs : list fsample) (P : nat -> arr) : R := fold_right (fun d z => a * class_cross_entropy B V (fun t => flab d [t]) (model (fval d) P) + z) 0 mbs.
Lemma t_mb P d : In d data -> seg_mb gs ps (F + 3) V [B] a P d = a * class_cross_entropy B V (fun t => flab d [t]) (model (fval d) P).
Proof.
  intros Hd. unfold seg_mb, ce_loss. rewrite sum1 by apply HG. unfold class_cross_entropy. f_equal. apply Rsum_ext. intros t Ht.
  pose proof (md_rng _ _ _ _ _ _ _ _ _ (Hdata d Hd)) as Hr.
  assert (EV : forall v t, (0 <= v < V)%Z -> (0 <= t < B)%Z -> eval (lms gl) (penv (0%nat :: ps) (xp (fval d) P)) (F + 3)%nat [v; t] = model (fval d) P v t)
    by (intros v t' Hv Ht'; exact (v_logits C B bt E Q Qt V x n lo b tcs HG HB tenv_ok (fval d) P v t' Hv Ht')).
  rewrite EV by auto. f_equal. f_equal. apply Rsum_ext. intros v Hv. rewrite EV by assumption. reflexivity.
Qed.
Lemma t_sum mbs : incl mbs data -> (fun P => sum_mb gs ps (F + 3) V [B] a P mbs) = batch_loss mbs.
Proof.
  intros Hi. apply functional_extensionality. intros P. unfold sum_mb, batch_loss. induction mbs as [|d mbs IH]; [reflexivity|]. cbn [fold_right].
  rewrite t_mb by (apply Hi; left; reflexivity). f_equal. apply IH. intros y Hy. apply Hi. right. assumption.
Qed.
Lemma t_ps_len : List.length ps = np. Proof. apply mparams_len. Qed.

Lemma mixer_train_eq it batches : mixer_train a o os x labels b it batches = seg_train mreq gs (m_acts n) ps (F + 3) (2 + 8 * n) kid labels a o it batches.
Proof.
  revert it. induction batches as [|mbs rest IH]; intros it; [reflexivity|]. cbn [mixer_train seg_train]. rewrite IH. f_equal.
  unfold mixer_batch, seg_batch, mixer_loss, seg_loss, loss_val. rewrite t_x, (mlid_eq C B bt E Q Qt V x n lo b HB), (mout_eq n), (mm_params_eq n), <- (segs_py C B bt E Q V n b tcs tenv_ok).
  replace (2 + 8 * n + 3)%nat with kid by lia. destruct o; reflexivity.
Qed.

Lemma params_hasn p : In p ps -> exists tr, hasn b p tr.
Proof.
  intros Hp. apply in_mparams in Hp as [-> | [(k & Hk & Hin) | -> ]].
        - eexists. apply (mb_pre _ _ _ _ _ _ _ _ _ _ _ HB 0%nat). reflexivity.
        - apply mparams_range in Hin. assert (exists tr, nth_error (mix_nodes C B bt E) (p - mfirst k) = Some tr) as [tr Etr].
          { destruct (nth_error (mix_nodes C B bt E) (p - mfirst k)) eqn:En; [eauto|]. apply nth_error_None in En. cbn [List.length mix_nodes app] in En. unfold mfirst in *. lia. }
          exists tr. replace p with (mfirst k + (p - mfirst k))%nat by lia. eapply (mb_blk _ _ _ _ _ _ _ _ _ _ _ HB); [lia|exact Etr].
        - eexists. apply (mb_post _ _ _ _ _ _ _ _ _ _ _ HB 2%nat). reflexivity.
Qed.
Lemma state_tensor p j : In p ps -> In j (opt_kinds o kid) -> bU b (Tmp j p) /\ t_shape (PyModels.bt b (Tmp j p)) = t_shape (PyModels.bt b (Val p)).
Proof.
  intros Hp Hj. destruct (params_hasn p Hp) as (tr & T1 & _). destruct (hast_U b _ _ _ T1) as (U1 & S1 & B1), (hast_U b _ _ _ (Hopt p j _ _ Hp Hj T1)) as (U2 & S2 & B2).
  split; [exact U2|congruence].
Qed.
(** training from any iteration number and state of the optimizer *)
Lemma mixer_train_from it m v P batches s : (opt_first o <= it)%Z -> o_inv ps o it (penv ps m, penv ps v) -> (it <> opt_first o -> opt_state o b ps kid m v s) ->
  (forall mbs, In mbs batches -> incl mbs data) -> mixer_ready os labels b C B Q data np P s ->
  let shapes := mixer_shapes C E Q V n in
  runs_acc (mixer_train a o os x labels b it batches) s (fun s' => exists P' m' v' hist,
    opt_iterates o shapes it (map batch_loss batches) P m v P' m' v' hist /\
    mixer_ready os labels b C B Q data np P' s' /\
    (it + zlen batches <> opt_first o -> opt_state o b ps kid m' v' s')%Z /\
    (batches <> [] -> elem s' (loss_val b) [] = Fin (last hist 0))).
Proof.
  intros Hit Inv0 Hst0 Hinc [r1 r2 r3 r4] shapes.
  assert (Ep := mm_params_eq n). unfold mpval in *.
  assert (Einit : has (Mst ps (2 + 8 * n) P None (o_known ps kid o it (penv ps m, penv ps v))) s).
  { split.
    - cbn [K tenv benv]. unfold bK. rewrite Forall_forall. intros k Hk. apply in_tcs in Hk as [->|(d & Hd & Hk)]; [exact r2|]. destruct (r3 d Hd) as (x1 & x2 & x3 & x4).
      destruct (Hdata d Hd) as [(_ & Sx & _) (_ & Sy & _) _ _ _].
      destruct Hk as [->| ->]; (split; [assumption|]).
      + rewrite Sx. intros idx Hi. apply inb3_inv in Hi as (c & t & q & -> & Hc & Ht & Hq). apply x3; assumption.
      + rewrite Sy. intros idx Hi. apply inb1_inv in Hi as (t & -> & Ht). apply x4; assumption.
    - intros gv Uv. destruct (bU_inv b gv Uv) as (t & Et & Ebt). cbn [A tenv benv]. split; [rewrite Ebt; eapply r1; eassumption|]. intros f Hf.
      destruct gv as [q|q|k i]; cbn [Mst] in Hf.
      + destruct (in_dec Nat.eq_dec q ps) as [Hq|]; [|discriminate]. injection Hf as <-. intros idx Hi. destruct (nth_index _ _ Hq) as [I1 I2]. rewrite t_ps_len in I2.
        specialize (r4 _ idx I2). rewrite Ep, I1 in r4. apply r4. exact Hi.
      + discriminate.
      + destruct (Nat.eq_dec k (2 + 8 * n)); [destruct (Nat.eq_dec i 0); discriminate|].
        destruct (Z.eq_dec it (opt_first o)) as [Eit|Nit].
        { exfalso. rewrite Eit in Hf. clear - Hf. revert Hf. destruct o as [lr mom wd damp nest|kd lr b1 b2 wd eps]; cbn [o_known opt_first]; intros Hf.
          - unfold sgd_known in Hf. cbn [Z.eqb] in Hf. destruct (Nat.eq_dec k kid); [destruct (in_dec Nat.eq_dec i ps); [destruct (Rltb 0 mom)|]|]; discriminate.
          - unfold adam_known in Hf. cbn in Hf. discriminate. }
        destruct (o_known ps kid o it (penv ps m, penv ps v) k i) as [f0|] eqn:Hf0; [|discriminate]. injection Hf as <-.
        specialize (Hst0 Nit). intros idx Hi. exact (state_known o b ps kid state_tensor m v s it k i f0 idx Hst0 Hf0 Hi). }
  assert (EL : map (fun mbs P => sum_mb gs ps (F + 3) V [B] a P mbs) batches = map batch_loss batches).
  { apply map_ext_in. intros mbs Hm. apply t_sum. apply Hinc. assumption. }
  rewrite mixer_train_eq. eapply acc_weaken.
  { refine (train_runs mreq gs (m_acts n) ps (F + 3) (2 + 8 * n) kid labels V [B] data a t_ok _ _ t_req _ _ t_ce _ _ _ _ _ o Hok _ _ shapes t_shapes batches Hinc it P m v None s _ Inv0 Einit).
    - rewrite t_outs. intros q Hm. apply in_acts. right. assumption.
    - intros q Hm Hr. apply in_acts in Hm as [->|Hm]; [discriminate|]. exact (proj1 (proj2 (sk_nodes _ _ _ _ _ t_ok q ltac:(apply in_or_app; left; rewrite t_outs; exact Hm)) Hr)).
    - intros q Hm Hp. apply in_acts in Hm as [->|Hm]; [pose proof (t_req _ Hp); discriminate|]. exact (mparams_outs n q (or_intror Hp) Hm).
    - intros q HU Hr Ha. exact (mnode_cases C B bt E Q Qt V x labels n lo b HB Hx Hlabels Hce q HU Hr Ha).
    - intros d Hd. destruct (Hdata d Hd) as [(Wx & Sx & Bx) (Wy & Sy & By) (D1 & D2) (D3 & D4) Hr]. destruct Hx as [X1 X2], Hlabels as [L1 L2]. split.
      + rewrite t_x. split; [assumption|]. split; [apply (D2 (Val 0)); apply (mb_x _ _ _ _ _ _ _ _ _ _ _ HB)|]. split; congruence.
      + split; [assumption|]. split; [assumption|]. split; congruence.
      + intros idx Hi. apply inb1_inv in Hi as (t & -> & Ht). apply Hr; assumption.
    - intros s0 d HK Hd. destruct (t_K s0 d HK Hd) as [Q1 _]. exact Q1.
    - intros s0 d HK Hd. destruct (t_K s0 d HK Hd) as [_ Q1]. destruct (Hdata d Hd) as [_ (_ & Sy & _) _ _ _]. cbn [c_holds] in Q1. rewrite Sy in Q1. exact Q1.
    - intros s0 HK. cbn [K tenv benv] in HK. unfold bK, tcs in HK. inversion HK; assumption.
    - intros s0 s1 Ht Hf. cbn [K tenv benv]. unfold bK. rewrite !Forall_forall. intros HK k Hk. specialize (HK k Hk). apply in_tcs in Hk as [->|(d & Hd & Hk)].
      + cbn [c_holds] in *. eapply tinv_stored; eassumption.
      + destruct (Hdata d Hd) as [(Wx & _) (Wy & _) (D1 & _) (D3 & _) _]. eapply c_frame; [| |exact Ht|exact Hf|exact HK]; destruct Hk as [->| ->]; assumption.
    - intros p j Hp Hj. destruct (params_hasn p Hp) as (tr & T1 & _). destruct (hast_U b _ _ _ T1) as (U1 & S1 & B1), (hast_U b _ _ _ (Hopt p j _ _ Hp Hj T1)) as (U2 & S2 & B2).
      split; [exact U2|]. split; cbn [A tenv benv]; congruence.
    - intros k Hk. rewrite (m_ids C B bt E Q V n b tcs tenv_ok). assert (Hk' : (5 + 8 * n <= k)%nat) by (destruct Hk as [<-|[<-|[<-|[]]]]; lia). split; [lia|].
      intros K1. apply in_app_or in K1 as [K1|K1]; [apply in_seq in K1; lia|cbn [In] in K1; lia].
    - intros done mbs rest P1 m1 v1 hist _ _ d _. apply m_dom. }
  intros s' _ (P' & m' & v' & hist & T1 & T2). exists P', m', v', hist. rewrite EL in T1. split; [exact T1|]. split.
  - destruct T2 as [HK HH]. split.
    + intros gv t Hv. destruct (HH gv) as [Hst _]; [cbn; unfold bU; congruence|]. cbn [A tenv benv] in Hst. unfold PyModels.bt in Hst. rewrite Hv in Hst. exact Hst.
    + cbn [K tenv benv] in HK. unfold bK, tcs in HK. inversion HK; assumption.
    + intros d Hd. destruct (t_K s' d HK Hd) as [[x1 x2] [y1 y2]]. destruct (Hdata d Hd) as [(_ & Sx & _) (_ & Sy & _) _ _ _]. rewrite Sx in x2. rewrite Sy in y2.
      split; [assumption|]. split; [assumption|]. split; intros; [apply x2|apply y2]; repeat apply Forall2_cons; try assumption; apply Forall2_nil.
    + intros j idx Hj Hi. unfold mpval in *. rewrite Ep in *.
      assert (Hin : In (nth j ps O) ps) by (apply nth_In; rewrite t_ps_len; exact Hj).
      assert (Uv : U (Val (nth j ps O))) by (apply (sk_nodes _ _ _ _ _ t_ok); apply in_or_app; right; right; assumption).
      destruct (HH (Val (nth j ps O)) Uv) as [_ HV]. cbn [Mst] in HV.
      destruct (in_dec Nat.eq_dec (nth j ps O) ps); [|contradiction]. etransitivity; [exact (HV _ eq_refl idx Hi)|].
      unfold fin, penv. rewrite index_nth; [reflexivity|apply (NoDup_cons_iff 0%nat); apply mparams_nodup|rewrite t_ps_len; exact Hj].
  - split.
    { intros Nit. destruct T2 as [_ HH]. apply (known_state o b ps kid state_tensor m' v' s' (it + zlen batches)); [apply (NoDup_cons_iff 0%nat); apply mparams_nodup|pose proof (zlen_nonneg batches); lia|exact Nit|].
      intros k i f idx Hf Uk Hi. destruct (HH (Tmp k i) Uk) as [_ HV]. apply (HV (fin f)); [|exact Hi]. cbn [Mst].
      destruct (Nat.eq_dec k (2 + 8 * n)) as [->|]; [|rewrite Hf; reflexivity]. exfalso.
      clear - Hf. destruct o as [lr mom wd damp nest|kd lr b1 b2 wd eps]; cbn [o_known] in Hf; [unfold sgd_known in Hf|unfold adam_known in Hf].
      - destruct (Nat.eq_dec (2 + 8 * n) kid); [lia|discriminate].
      - destruct (it + zlen batches =? 1)%Z; [discriminate|]. destruct (in_dec Nat.eq_dec i ps); [|discriminate]. destruct (Nat.eq_dec (2 + 8 * n) kid); [lia|]. destruct (Nat.eq_dec (2 + 8 * n) (S kid)); [lia|discriminate]. }
    intros Hne. assert (Hh : hist <> []).
    { destruct batches as [|mbs rest]; [congruence|]. cbn [map opt_iterates] in T1. destruct T1 as (? & ? & ? & ? & _ & -> & _). discriminate. }
    destruct Hce as [HC0 _]. destruct (hast_U b _ _ _ HC0) as (U0 & S0 & _). destruct T2 as [_ HH]. destruct (HH _ U0) as [_ HV]. cbn [Mst] in HV.
    destruct (Nat.eq_dec (2 + 8 * n) (2 + 8 * n)); [|congruence]. cbn [Nat.eq_dec] in HV.
    unfold loss_val. rewrite (mlid_eq C B bt E Q Qt V x n lo b HB). destruct hist as [|z hist]; [congruence|]. apply (HV _ eq_refl). cbn [A tenv benv]. rewrite S0. constructor.
Qed.
End Train.

(** ** C69 for the MLP mixer: as C69_deep_relu_resumed_training in PropRelu.v *)
Theorem C69_mlp_mixer_resumed_training C B bt E Q Qt V x layers next o :
  mdims C B bt E Q Qt V -> (0 < layers)%nat -> wf_tensor x -> tens x [C; B; Q] [C; bt; Qt] -> (forall k, In k (tile_handles x) -> (k < next)%Z) -> opt_ok o ->
  exists os b0 labels b1 b,
    mlp_mixer x E layers V next = Ok (os, b0) /\ gen_cross_entropy (last_out os) b0 = Ok (labels, b1) /\
    opt_new o (lid b1 + 3) (mm_params os) b1 = Ok b /\
    let shapes := mixer_shapes C E Q V layers in
    map (fun m => t_shape (PyModels.bt b (Val m))) (mm_params os) = shapes /\
    forall data past batches a P0 P m v past_hist s,
      let np := (2 + 8 * layers)%nat in
      let model := fun X P => mixer_logits C E Q (/ 100000) X P layers in
      let loss := fun mbs P => fold_right (fun d z => a * class_cross_entropy B V (fun t => flab d [t]) (model (fval d) P) + z) 0 mbs in
      let zero := fun (_ : nat) (_ : list Z) => 0 in
      let it := (opt_first o + zlen past)%Z in
      opt_iterates o shapes (opt_first o) past P0 zero zero P m v past_hist ->
      (past <> [] -> opt_state o b (mm_params os) (lid b1 + 3) m v s) ->
      (forall d, In d data -> mdata_ok labels C B bt Q Qt V b d) ->
      (forall mbs, In mbs batches -> incl mbs data) ->
      mixer_ready os labels b C B Q data np P s ->
      runs_acc (mixer_train a o os x labels b it batches) s (fun s' => exists P' m' v' hist,
        opt_iterates o shapes (opt_first o) (past ++ map loss batches) P0 zero zero P' m' v' (past_hist ++ hist) /\
        mixer_ready os labels b C B Q data np P' s' /\
        (past ++ map loss batches <> [] -> opt_state o b (mm_params os) (lid b1 + 3) m' v' s') /\
        (batches <> [] -> elem s' (loss_val b) [] = Fin (last hist 0))).
Proof.
  intros HG Hn Wx Tx Hh Ho.
  assert (Hlo : exists lo, (lo <= next)%Z /\ forall k, In k (tile_handles x) -> (lo <= k)%Z).
  { clear - next. induction (tile_handles x) as [|k l (lo & H1 & H2)]; [exists next; split; [lia|intros ? []]|]. exists (Z.min lo k). split; [lia|]. intros k' [<-|H]; [lia|]. specialize (H2 _ H). lia. }
  destruct Hlo as (lo & Hlo & Hlo'). assert (Hr : forall k, In k (tile_handles x) -> (lo <= k < next)%Z) by (intros k Hk; auto).
  pose proof (mlp_mixer_ok C B bt E Q Qt V HG x layers lo next Hn Wx Tx Hlo Hr) as H1. unfold okp in H1. destruct (mlp_mixer x E layers V next) as [[os b0]| |] eqn:E1; try contradiction.
  destruct H1 as (-> & HB & Ht).
  assert (El := mlid_eq C B bt E Q Qt V x layers lo b0 HB). assert (Eo := mout_eq layers).
  destruct (mb_post _ _ _ _ _ _ _ _ _ _ _ HB 3%nat _ eq_refl) as [N1 _]. cbn [fst snd] in N1.
  assert (HF : fit [V; B] [V; bt]) by (destruct HG; apply fit2; assumption).
  pose proof (gen_ce_ok lo (mfirst layers + 3) V [B] [bt] b0 (mb_inv _ _ _ _ _ _ _ _ _ _ _ HB) Ht N1 HF) as H2.
  unfold okp in H2. rewrite <- Eo in H2. destruct (gen_cross_entropy (last_out (all_objs layers)) b0) as [[labels b1]| |] eqn:E2; try contradiction.
  destruct H2 as (HI & HX & Hn' & HL & HA & Wl & (Sl & Bl & _) & Hl & Dl & C0 & C1 & C2 & Tf). rewrite El in C0, C1, C2, Tf.
  assert (HB1 := mbuilt_ext _ _ _ _ _ _ _ _ _ _ _ _ HB HI HX Hn' HL).
  assert (El1 := mlid_eq C B bt E Q Qt V x layers lo b1 HB1).
  assert (Ep := mm_params_eq layers).
  set (kid := (5 + 8 * layers)%nat).
  assert (NK : NoDup (opt_kinds o kid)).
  { destruct o as [lr mom wd damp nest|kd lr b1' b2 wd eps]; cbn [opt_kinds]; [destruct (Rltb 0 mom); repeat constructor; intros []|].
    repeat constructor; cbn [In]; lia. }
  assert (KK : forall k, In k (opt_kinds o kid) -> (kid <= k)%nat).
  { intros k. destruct o as [lr mom wd damp nest|kd lr b1' b2 wd eps]; cbn [opt_kinds]; [destruct (Rltb 0 mom)|]; cbn [In]; lia. }
  assert (PH : forall p, In p (m_params layers) -> exists tr, hasn b1 p tr).
  { intros p Hp. apply in_mparams in Hp as [-> | [(k & Hk & Hin) | -> ]].
    - eexists. apply (mb_pre _ _ _ _ _ _ _ _ _ _ _ HB1 0%nat). reflexivity.
    - apply mparams_range in Hin. assert (exists tr, nth_error (mix_nodes C B bt E) (p - mfirst k) = Some tr) as [tr Etr].
      { destruct (nth_error (mix_nodes C B bt E) (p - mfirst k)) eqn:En; [eauto|]. apply nth_error_None in En. cbn [List.length mix_nodes app] in En. unfold mfirst in *. lia. }
      exists tr. replace p with (mfirst k + (p - mfirst k))%nat by lia. eapply (mb_blk _ _ _ _ _ _ _ _ _ _ _ HB1); [lia|exact Etr].
    - eexists. apply (mb_post _ _ _ _ _ _ _ _ _ _ _ HB1 2%nat). reflexivity. }
  assert (PD : NoDup (m_params layers)) by (apply (NoDup_cons_iff 0%nat); apply mparams_nodup).
  assert (H3 : okp (gen_states (opt_kinds o kid) (m_params layers) b1) (fun b' => grown lo b1 b' /\ (forall k p sh ba, In k (opt_kinds o kid) -> In p (m_params layers) -> hast b1 (Val p) sh ba -> hast b' (Tmp k p) sh ba))).
  { apply (gen_states_ok lo (opt_kinds o kid) (m_params layers) b1 HI); [|exact NK|exact PD|].
    - intros p Hin. destruct (PH p Hin) as (tr & T1 & _). eauto.
    - intros k p Hk _. apply Tf. apply KK in Hk. unfold kid in Hk. lia. }
  unfold okp in H3. destruct (gen_states (opt_kinds o kid) (m_params layers) b1) as [b| |] eqn:E3; try contradiction.
  destruct H3 as (GR & HT). destruct GR as [GI GX Gn GL GA Gnew Gnext].
  assert (HB2 := mbuilt_ext _ _ _ _ _ _ _ _ _ _ _ _ HB1 GI GX Gn GL).
  exists (all_objs layers), b0, labels, b1, b. split; [reflexivity|]. split; [assumption|]. split.
  { unfold opt_new. rewrite El1, Ep. replace (2 + 8 * layers + 3)%nat with kid by (unfold kid; lia). exact E3. }
  intros shapes. split; [apply (mshapes_eq C B bt E Q Qt V x layers lo b HB2)|].
  intros data past batches a P0 P m v ph s np model loss zero it Hit Hst Hdat Hinc Hs. rewrite El1, Ep in *. replace (2 + 8 * layers + 3)%nat with kid in * by (unfold kid; lia).
  assert (HD : forall v t, b_mem b v = Some t -> disj labels t).
  { intros gv t Hv. destruct (b_mem b1 gv) as [u|] eqn:Eu; [assert (u = t) by (apply GX in Eu; congruence); subst; apply (Dl gv t Eu)|].
    intros k K1 K2. specialize (Gnew gv t k Hv Eu K2). specialize (Hl k K1). lia. }
  assert (HC : hast b (Tmp (2 + 8 * layers) 0) [] [] /\ hast b (Tmp (2 + 8 * layers) 1) [2; B]%Z [2; bt]%Z /\ hast b (Tmp (2 + 8 * layers) 2) [B] [bt]).
  { repeat split; eapply hast_ext; eauto. }
  assert (HT' : forall p j sh ba, In p (m_params layers) -> In j (opt_kinds o kid) -> hast b (Val p) sh ba -> hast b (Tmp j p) sh ba).
  { intros p j sh ba Hin Hj Hv. apply (HT j p sh ba Hj Hin). destruct (PH p Hin) as ([sh' ba'] & T1 & _). cbn [fst snd] in T1.
    assert (T2 := hast_ext _ _ _ _ _ GX T1). destruct T2 as (t & Q1 & <- & <- & _), Hv as (t' & Q2 & <- & <- & _). assert (t' = t) by congruence. subst. exact T1. }
  destruct Tx as (Tx1 & Tx2 & _).
  eapply acc_weaken.
  { apply (mixer_train_from C B bt E Q Qt V x labels layers lo b HG HB2 (conj Tx1 Tx2) (conj Sl Bl) Wl HD HC data a o Ho Hdat HT' it m v P batches s).
    - unfold it. pose proof (zlen_nonneg past). lia.
    - unfold it. eapply (o_inv_iterates o _ _ past); [exact Ho|apply o_inv0|exact Hit].
    - unfold it. intros Hne. apply Hst. intros ->. apply Hne. change (zlen []) with 0%Z. lia.
    - exact Hinc.
    - exact Hs. }
  cbv beta. intros s' _ (P' & m' & v' & hist & T1 & T2 & T3 & T4). exists P', m', v', hist. split; [eapply iterates_app; [exact Hit|exact T1]|]. split; [exact T2|]. split; [|exact T4].
  intros Hne. apply T3. unfold it. intros K0. apply Hne. pose proof (zlen_nonneg past). pose proof (zlen_nonneg batches).
  assert (zlen past = 0%Z /\ zlen batches = 0%Z) as [Z1 Z2] by lia. unfold zlen in Z1, Z2. destruct past; [|discriminate]. destruct batches; [reflexivity|discriminate].
Qed.

(** ** C65 *)
(** The model, the loss and the optimizer are constructed in this order.  [batches]: the batches of
    all epochs in order, each a list of minibatches.  After every execution (every order of tasks
    allowed by the declared accesses, in which the accumulations into the value of the loss may
    change places) the parameters are the iterates of the optimizer on the sums of the scaled
    cross-entropies of the minibatches of a batch, started with state zero, and the value of the
    loss is that of the last batch, at the parameters before its step. *)
Theorem C65_mlp_mixer_training C B bt E Q Qt V x layers next o :
  mdims C B bt E Q Qt V -> (0 < layers)%nat -> wf_tensor x -> tens x [C; B; Q] [C; bt; Qt] -> (forall k, In k (tile_handles x) -> (k < next)%Z) -> opt_ok o ->
  exists os b0 labels b1 b,
    mlp_mixer x E layers V next = Ok (os, b0) /\ gen_cross_entropy (last_out os) b0 = Ok (labels, b1) /\
    opt_new o (lid b1 + 3) (mm_params os) b1 = Ok b /\
    let shapes := mixer_shapes C E Q V layers in
    map (fun m => t_shape (PyModels.bt b (Val m))) (mm_params os) = shapes /\
    forall data batches a P s,
      let np := (2 + 8 * layers)%nat in
      let model := fun X P => mixer_logits C E Q (/ 100000) X P layers in
      let loss := fun mbs P => fold_right (fun d z => a * class_cross_entropy B V (fun t => flab d [t]) (model (fval d) P) + z) 0 mbs in
      let zero := fun (_ : nat) (_ : list Z) => 0 in
      (forall d, In d data -> mdata_ok labels C B bt Q Qt V b d) ->
      (forall mbs, In mbs batches -> incl mbs data) ->
      mixer_ready os labels b C B Q data np P s ->
      runs_any (mixer_train a o os x labels b (opt_first o) batches) s (fun s' => exists P' m' v' hist,
        opt_iterates o shapes (opt_first o) (map loss batches) P zero zero P' m' v' hist /\
        mixer_ready os labels b C B Q data np P' s' /\
        (batches <> [] -> elem s' (loss_val b) [] = Fin (last hist 0))).
Proof.
  intros HG Hn Wx Tx Hh Ho. destruct (C69_mlp_mixer_resumed_training C B bt E Q Qt V x layers next o HG Hn Wx Tx Hh Ho) as (os & b0 & labels & b1 & b & E1 & E2 & E3 & ES & H).
  exists os, b0, labels, b1, b. split; [exact E1|]. split; [exact E2|]. split; [exact E3|]. split; [exact ES|].
  intros data batches a P s np model loss zero Hdat Hinc Hs. specialize (H data [] batches a P P zero zero [] s). cbv zeta in H. change (zlen []) with 0%Z in H. rewrite Z.add_0_r in H.
  apply acc_any. eapply acc_weaken; [apply H; try assumption; [repeat split|congruence]|]. cbv beta. intros s' _ (P' & m' & v' & hist & T1 & T2 & _ & T4). exists P', m', v', hist. auto.
Qed.
