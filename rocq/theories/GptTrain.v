(** * Training of GPT2: minibatches, batches, the optimizer *)
From Coq Require Import Reals Lra FunctionalExtensionality Sorted.
From Coquelicot Require Import Coquelicot.
From Verif Require Import Base Spec Geometry Traits TraitsProofs Runtime Ops RealOps TensorSem OneOut ElemOps ElemGeneric Concrete Axis SliceGeo Sequence XReals NdRuns AnyRuns Serial2 RSum AttnSpec MatOps PropElem IntCopy CrossEntropy XTriples HasRuns TapeMath VjpMath Tape PyLayers PyLinear PySimple PyNorm AttMath PyAttn PyFlash Backprop CeLoss PropModel PyTrain PropTrain PyModels BuildEnv GptBuild BuildModel OptBuild GptSpec GptModel GptEval GptRun PropGpt.
Local Close Scope Z_scope.
Local Open Scope R_scope.

Lemma kind_acc : run_kind runs_acc.
Proof.
  split.
  - intros r1 r2 s P Q H1 H2. eapply acc_then; [apply nd_acc; exact H1|exact H2].
  - intros r1 r2 s P Q H1 H2. eapply acc_then; [exact H1|]. intros s1 T1 P1. apply nd_acc. apply H2; assumption.
Qed.

(** A minibatch: tensors with the numbers of the tokens and the labels, and these numbers. *)
Record sample := { sx : tensor; sy : tensor; stok : Z -> Z -> Z; slab : Z -> Z -> Z }.

(** pipeline.py:50-71 for the built model [b] with the loss [labels], scale [a] *)
Definition gpt2_loss (a : R) (labels : tensor) (b : build) : res (list (task XR)) :=
  crossentropy_calc (Fin a) (bt b (Val (out_node b))) labels (bt b (Tmp (lid b) 1)) (bt b (Tmp (lid b) 2)) (loss_val b) (bt b (Grad (out_node b))).
Definition gpt2_batch (a : R) (o : optimizer) (ids labels : tensor) (b : build) (it : Z) (mbs : list sample) : res (list (task XR)) :=
  train_batch (map (bmom req b) (bm_params b)) (map (bmom req b) (b_acts b)) (loss_val b) ids labels (bm_layers req b) (gpt2_loss a labels b)
    (map (fun d => (sx d, sy d)) mbs) (opt_step req b o (S (lid b)) (bm_params b) it).
(** pipeline.py:41-71: the batches of all epochs in order *)
Fixpoint gpt2_train (a : R) (o : optimizer) (ids labels : tensor) (b : build) (it : Z) (batches : list (list sample)) : res (list (task XR)) :=
  match batches with
  | [] => Ok []
  | mbs :: rest => then_ (gpt2_batch a o ids labels b it mbs) (gpt2_train a o ids labels b (it + 1) rest)
  end.

(** ** Specification of training: iterates of an optimizer on given functions of the parameters *)
Section Iterates.
Variables (o : optimizer) (shapes : list (list Z)).
(** One step on [loss]: with g its gradient, every entry follows the rule of the optimizer. *)
Definition opt_update (it : Z) (loss : (nat -> arr) -> R) (P m v P' m' v' : nat -> arr) : Prop :=
  exists g : nat -> arr,
    (forall j idx, (j < List.length shapes)%nat -> inb (nth j shapes []) idx -> is_derive (fun t => loss (vary P j idx t)) (P j idx) (g j idx)) /\
    (forall j idx, P' j idx = rule_p o it (P j idx) (g j idx) (m j idx) (v j idx)) /\
    (forall j idx, m' j idx = rule_m o it (P j idx) (g j idx) (m j idx) (v j idx)) /\
    (forall j idx, v' j idx = rule_v o it (P j idx) (g j idx) (m j idx) (v j idx)).
(** Steps on each of [losses] in turn; [hist] holds the value of each at the parameters before its
    step. *)
Fixpoint opt_iterates (it : Z) (losses : list ((nat -> arr) -> R)) (P m v P' m' v' : nat -> arr) (hist : list R) : Prop :=
  match losses with
  | [] => P' = P /\ m' = m /\ v' = v /\ hist = []
  | loss :: rest => exists P1 m1 v1 hist', opt_update it loss P m v P1 m1 v1 /\ hist = loss P :: hist' /\
      opt_iterates (it + 1) rest P1 m1 v1 P' m' v' hist'
  end.
End Iterates.

Section Train.
Variables (c : gpt2_config) (mask ids pos labels : tensor) (n nb nt bt h lo : Z) (b : build).
Hypothesis G : gdims c n nb nt bt h.
Hypothesis HB : gbuilt c mask ids pos n nb nt bt h lo b.
Hypothesis Heps : 0 < c_eps c.
Hypothesis Hids : t_shape ids = [n; nb] /\ t_base ids = [nt; bt].
Hypothesis Hpos : t_shape pos = [n] /\ t_base pos = [nt].
Hypothesis Hmask : t_shape mask = [n; n] /\ t_base mask = [nt; nt].
Hypothesis Hlabels : t_shape labels = [n; nb] /\ t_base labels = [nt; bt].
Hypothesis Hwf : wf_tensor ids /\ wf_tensor pos /\ wf_tensor mask /\ wf_tensor labels.
Hypothesis Hdisj : forall x t, b_mem b x = Some t -> disj ids t /\ disj pos t /\ disj mask t /\ disj labels t.
Hypothesis Hdis : disj ids pos /\ disj ids mask /\ disj ids labels /\ disj labels pos /\ disj labels mask.
Hypothesis Hflash : c_flash c = true -> (nt | n)%Z /\ (bt | nb)%Z.
Notation L := (c_layers c). Notation e := (c_embed c).
Notation np := (5 + 16 * L)%nat.
Hypothesis Hce : hast b (Tmp (5 + 8 * L) 0) [] [] /\ hast b (Tmp (5 + 8 * L) 1) [2; n; nb]%Z [2; nt; bt]%Z /\ hast b (Tmp (5 + 8 * L) 2) [n; nb] [nt; bt].
Variables (positions : Z -> Z) (data : list sample) (a : R).
Hypothesis Hposn : forall i, (0 <= i < n)%Z -> (0 <= positions i < c_maxpos c)%Z.

Record data_ok (d : sample) : Prop := {
  do_x : wf_tensor (sx d) /\ t_shape (sx d) = [n; nb] /\ t_base (sx d) = [nt; bt];
  do_y : wf_tensor (sy d) /\ t_shape (sy d) = [n; nb] /\ t_base (sy d) = [nt; bt];
  do_dx : disj (sx d) ids /\ disj (sx d) labels /\ forall x t, b_mem b x = Some t -> disj (sx d) t;
  do_dy : disj (sy d) ids /\ disj (sy d) labels /\ forall x t, b_mem b x = Some t -> disj (sy d) t;
  do_rng : forall i t, (0 <= i < n)%Z -> (0 <= t < nb)%Z -> (0 <= stok d i t < c_vocab c)%Z /\ (0 <= slab d i t < c_vocab c)%Z
}.
Hypothesis Hdata : forall d, In d data -> data_ok d.

(** ** The environment: [x] tells what is known of the tokens in [ids] *)
Definition dcs : list const := flat_map (fun d => [CInt (sx d) (idx2 (stok d)); CInt (sy d) (idx2 (slab d))]) data.
Definition cs (x : const) : list const := x :: CStored labels :: CInt pos (idx1 positions) :: CBool mask causal :: dcs.
Lemma in_dcs k : In k dcs -> exists d, In d data /\ (k = CInt (sx d) (idx2 (stok d)) \/ k = CInt (sy d) (idx2 (slab d))).
Proof. unfold dcs. rewrite in_flat_map. intros (d & H1 & [<-|[<-|[]]]); exists d; auto. Qed.
Lemma cs_env x : c_tensor x = ids -> benv_ok b (cs x).
Proof.
  intros Ex. destruct Hwf as (w1 & w2 & w3 & w4). destruct (gb_inv _ _ _ _ _ _ _ _ _ _ _ HB) as [i1 i2 i3 i4 i5].
  split; [exact i2|exact i4| |].
  - intros k [<-|[<-|[<-|[<-|Hk]]]]; [rewrite Ex|..]; try assumption. apply in_dcs in Hk as (d & Hd & [->| ->]); apply (Hdata d Hd).
  - intros k y t Hk Hy. destruct (Hdisj y t Hy) as (d1 & d2 & d3 & d4). destruct Hk as [<-|[<-|[<-|[<-|Hk]]]]; [rewrite Ex; assumption|assumption..|].
    apply in_dcs in Hk as (d & Hd & [->| ->]); cbn [c_tensor]; [apply (do_dx _ (Hdata d Hd)) with (x := y)|apply (do_dy _ (Hdata d Hd)) with (x := y)]; assumption.
Qed.
Definition E0 : env := benv b (cs (CStored ids)) (cs_env (CStored ids) eq_refl).
Definition E1 (tok : Z -> Z -> Z) : env := benv b (cs (CInt ids (idx2 tok))) (cs_env (CInt ids (idx2 tok)) eq_refl).

(** Contents known, with or without the tokens. *)
Notation has0 := (@has E0). Notation has1 tok := (@has (E1 tok)).
Lemma has_forget tok M s : has1 tok M s -> has0 M s.
Proof.
  intros [HK H]. split; [|exact H]. cbn [K E0 E1 benv] in *. unfold bK, cs in *. inversion HK as [|? ? H1 H2]; subst. constructor; [|exact H2].
  cbn [c_holds] in *. apply H1.
Qed.
Lemma K0_data s d : @K E0 s -> In d data -> stored KI s (sx d) /\ stored KI s (sy d) /\
  (forall idx, inb [n; nb] idx -> ielem s (sx d) idx = idx2 (stok d) idx) /\ (forall idx, inb [n; nb] idx -> ielem s (sy d) idx = idx2 (slab d) idx).
Proof.
  intros HK Hd. cbn [K E0 benv] in HK. unfold bK in HK. rewrite Forall_forall in HK.
  assert (I1 : In (CInt (sx d) (idx2 (stok d))) (cs (CStored ids))) by (do 4 right; apply in_flat_map; exists d; split; [assumption|left; reflexivity]).
  assert (I2 : In (CInt (sy d) (idx2 (slab d))) (cs (CStored ids))) by (do 4 right; apply in_flat_map; exists d; split; [assumption|right; left; reflexivity]).
  apply HK in I1, I2. cbn [c_holds] in I1, I2. destruct (Hdata d Hd) as [(_ & Sx & _) (_ & Sy & _) _ _ _]. rewrite Sx in I1. rewrite Sy in I2. tauto.
Qed.
Lemma K1_K0 tok s : @K (E1 tok) s -> @K E0 s.
Proof.
  cbn [K E0 E1 benv]. unfold bK, cs. intros HK. inversion HK as [|? ? H1 H2]; subst. constructor; [|exact H2]. apply H1.
Qed.
(** the tokens are copied in *)
Lemma copy_ids d M s : In d data -> has0 M s -> runs_nd (copy_async (sx d) ids) s (has1 (stok d) M).
Proof.
  intros Hd Hs. destruct (Hdata d Hd) as [(Wx & Sx & Bx) _ (Dx1 & Dx2 & Dx3) _ _]. destruct Hids as [Si Bi]. destruct Hs as [HK Hx].
  destruct (K0_data s d HK Hd) as (Kx & _ & Vx & _).
  assert (Ki : stored KI s ids) by (cbn [K E0 benv] in HK; unfold bK, cs in HK; inversion HK; assumption).
  apply runs_runs_nd. eapply runs_weaken.
  { apply (copy_int_runs (sx d) ids s); try assumption; try (apply wf_wft; first [assumption|apply Hwf]). split; congruence. }
  intros s1 Ht [R1 R2]. split.
  - cbn [K E1 E0 benv] in *. unfold bK, cs in *. inversion HK as [|? ? _ H2]; subst. constructor.
    + cbn [c_holds]. split; [eapply tinv_stored; eassumption|]. rewrite Si in *. intros idx Hi. rewrite R1 by assumption. apply Vx. assumption.
    + rewrite Forall_forall in *. intros k Hk. assert (Hk' := Hk). apply H2 in Hk'.
      assert (WD : wf_tensor (c_tensor k) /\ disj (c_tensor k) ids).
      { destruct Hdis as (x1 & x2 & x3 & x4 & x5). destruct Hk as [<-|[<-|[<-|Hk]]]; cbn [c_tensor]; [split; [apply Hwf|apply disj_sym; assumption]..|].
        apply in_dcs in Hk as (d' & Hd' & [->| ->]); cbn [c_tensor]; (split; [apply (Hdata d' Hd')|]); [apply (do_dx _ (Hdata d' Hd'))|apply (do_dy _ (Hdata d' Hd'))]. }
      eapply c_frame; [apply WD|apply WD|exact Ht|exact R2|exact Hk'].
  - intros x Ux. destruct (Hx x Ux) as [St Vt]. cbn [A E0 E1 benv] in *. split; [eapply tinv_stored; eassumption|]. intros f Hf idx Hi. rewrite <- (Vt f Hf) by assumption.
    destruct (bU_inv b x Ux) as (t & Et & Ebt). rewrite Ebt in *. apply (frame_elem [ids]).
    + apply wf_wft. apply (bi_wf _ _ (gb_inv _ _ _ _ _ _ _ _ _ _ _ HB) x t Et).
    + assumption.
    + intros u [<-|[]]. apply disj_sym. apply (Hdisj x t Et).
    + assumption.
Qed.
(** the labels may be overwritten *)
Lemma labels_free tok (s s' : store XR) : tinv s s' -> frame [labels] s s' -> @K (E1 tok) s -> @K (E1 tok) s'.
Proof.
  intros Ht Hf. cbn [K E1 benv]. unfold bK. rewrite !Forall_forall. intros HK k Hk. specialize (HK k Hk).
  destruct Hk as [<-|[<-|Hk]].
  - eapply c_frame; [apply Hwf|apply Hdis|exact Ht|exact Hf|exact HK].
  - cbn [c_holds] in *. eapply tinv_stored; eassumption.
  - assert (WD : wf_tensor (c_tensor k) /\ disj (c_tensor k) labels).
    { destruct Hdis as (x1 & x2 & x3 & x4 & x5). destruct Hk as [<-|[<-|Hk]]; cbn [c_tensor]; [split; [apply Hwf|apply disj_sym; assumption]..|].
      apply in_dcs in Hk as (d' & Hd' & [->| ->]); cbn [c_tensor]; (split; [apply (Hdata d' Hd')|]); [apply (do_dx _ (Hdata d' Hd'))|apply (do_dy _ (Hdata d' Hd'))]. }
    eapply c_frame; [apply WD|apply WD|exact Ht|exact Hf|exact HK].
Qed.

(** ** One minibatch *)
Notation model tok P := (logits e (c_head c) h n (c_inner c) (c_eps c) (act_fun (c_act c)) tok positions P L).
Definition mb_ce (P : nat -> arr) (d : sample) : R := a * cross_entropy n nb (c_vocab c) (slab d) (model (stok d) P).
Definition smooth_at (P : nat -> arr) (d : sample) : Prop :=
  c_act c = Relu -> forall k i x t, (k < L)%nat -> (0 <= i < c_inner c)%Z -> (0 <= x < n)%Z -> (0 <= t < nb)%Z ->
  preactivation e (c_head c) h n (c_eps c) P (2 + 16 * k) (states e (c_head c) h n (c_inner c) (c_eps c) (act_fun (c_act c)) (stok d) positions P k) i x t <> 0.

(** what is known between the tasks: values of the parameters, of the loss, of other temporaries *)
Definition Mst (P : nat -> arr) (l : option R) (kn : nat -> nat -> option arr) : smap := fun x =>
  match x with
  | Val m => if in_dec Nat.eq_dec m (g_params c) then Some (fin (penv (g_params c) P m)) else None
  | Grad _ => None
  | Tmp k i => if Nat.eq_dec k (5 + 8 * L) then if Nat.eq_dec i 0 then match l with Some l => Some (fin (fun _ => l)) | None => None end else None
      else match kn k i with Some f => Some (fin f) | None => None end
  end.
Notation acts := (b_acts b). Notation ps := (g_params c).

Section Mb.
Variables (d : sample) (P : nat -> arr).
Hypothesis Hd : In d data.
Hypothesis Hsm : smooth_at P d.
Let idv := idx2 (stok d).
Let HE := cs_env (CInt ids idv) eq_refl.
Instance menv : env := E1 (stok d).
Notation gl := (g_layers c mask ids pos n nb h b (cs (CInt ids idv)) idv (idx1 positions) HE).
Lemma m_cs : In (CInt ids idv) (cs (CInt ids idv)) /\ In (CInt pos (idx1 positions)) (cs (CInt ids idv)) /\ In (CBool mask causal) (cs (CInt ids idv)).
Proof. unfold cs. cbn [In]. tauto. Qed.
Lemma m_idv : forall idx, inb [n; nb] idx -> (0 <= idv idx < c_vocab c)%Z.
Proof. intros idx Hi. apply inb2_inv in Hi as (i & t & -> & Hi & Ht). apply (do_rng _ (Hdata d Hd)); assumption. Qed.
Lemma m_posv : forall idx, inb [n] idx -> (0 <= idx1 positions idx < c_maxpos c)%Z.
Proof. intros idx Hi. apply inb1_inv in Hi as (i & -> & Hi). apply Hposn; assumption. Qed.
Lemma m_model : model_ok req gl ps (first L + 4) (5 + 8 * L).
Proof. exact (g_model_ok c mask ids pos n nb nt bt h lo b _ idv (idx1 positions) G HB HE Heps m_cs Hids Hpos Hmask m_idv m_posv Hflash). Qed.
Lemma m_eval P' : forall v i t, (0 <= v < c_vocab c)%Z -> (0 <= i < n)%Z -> (0 <= t < nb)%Z ->
  eval (map ly_m gl) (penv ps P') (first L + 4) [v; i; t] = model (stok d) P' v i t.
Proof.
  intros v i t Hv Hi Ht.
  exact (v_logits c mask ids pos n nb nt bt h lo b _ idv (idx1 positions) G HB HE Heps m_cs Hids Hpos Hmask Hflash P' v i t Hv Hi Ht).
Qed.
Lemma m_loss P' : ce_loss a (c_vocab c) [n; nb] (idx2 (slab d)) (eval (map ly_m gl) (penv ps P') (first L + 4)) = mb_ce P' d.
Proof.
  unfold ce_loss, mb_ce. rewrite sum2 by apply G. unfold cross_entropy. rewrite Rsum_swap. f_equal. apply Rsum_ext. intros i Hi. apply Rsum_ext. intros t Ht. cbn [idx2].
  rewrite m_eval by (assumption || apply (do_rng _ (Hdata d Hd)); assumption). f_equal. f_equal. apply Rsum_ext. intros v Hv. rewrite m_eval by assumption. reflexivity.
Qed.
Lemma m_ce : ce_shape req (first L + 4) (5 + 8 * L) labels (c_vocab c) [n; nb].
Proof.
  destruct Hce as (C0 & C1 & C2). destruct (gb_post _ _ _ _ _ _ _ _ _ _ _ HB 4%nat _ eq_refl) as [N1 N2]. cbn [fst snd] in N1, N2.
  destruct (hast_U b _ _ _ C0) as (U0 & S0 & B0), (hast_U b _ _ _ C1) as (U1 & S1 & B1), (hast_U b _ _ _ C2) as (U2 & S2 & B2),
    (hast_U b _ _ _ N1) as (U3 & S3 & B3), (hast_U b _ _ _ N2) as (U4 & S4 & B4).
  destruct Hlabels as [El1 El2].
  split.
  - apply (mo_nodes _ _ _ _ _ m_model). apply in_or_app. left. apply (mo_o _ _ _ _ _ m_model).
  - reflexivity.
  - intros i Hi. destruct i as [|[|[|i]]]; [exact U0|exact U1|exact U2|lia].
  - apply Hwf.
  - intros x Hx. destruct (bU_inv b x Hx) as (t & Et & Eb). change (A x) with (PyModels.bt b x). rewrite Eb. apply (Hdisj x t Et).
  - split; cbn [A menv E1 benv]; rewrite ?El2; try (split; assumption); try assumption. split; congruence.
Qed.
Lemma Eb j : (j < np)%nat -> nth j (bm_params b) O = nth j ps O.
Proof. intros; rewrite (bm_params_eq c mask ids pos n nb nt bt h lo b HB); reflexivity. Qed.

Lemma mb_runs l kn Gr s : (forall k i f, kn k i = Some f -> (5 + 8 * L < k)%nat) -> has0 (known_out req acts (Mst P (Some l) kn) Gr) s ->
  runs_acc (minibatch (map (bmom req b) acts) ids labels (bm_layers req b) (gpt2_loss a labels b) (sx d, sy d)) s (fun s' => exists Gr',
    has0 (known_out req acts (Mst P (Some (l + mb_ce P d)) kn) Gr') s' /\
    forall j idx, (j < np)%nat -> inb (t_shape (pval b j)) idx ->
      is_derive (fun t => l + mb_ce (vary P j idx t) d) (P j idx) (Gr' (nth j ps O) idx - Gr (nth j ps O) idx)).
Proof.
  intros Hkn Hs.
  assert (PL := params_len c). assert (PD := params_nodup c).
  assert (OG := g_outs c mask ids pos n nb nt bt h lo b _ idv (idx1 positions) HB HE Hflash).
  assert (HP := g_layers_py c mask ids pos n nb nt bt h lo b _ idv (idx1 positions) HB HE Hflash).
  assert (NO : forall m, In m acts -> ~ In m ps).
  { intros m Hm Hp. rewrite <- OG in Hm. exact (ordered_fresh _ _ _ (mo_ordered _ _ _ _ _ m_model) Hp Hm). }
  assert (IDS : forall k, In k (map ly_id gl) -> (k < 5 + 8 * L)%nat).
  { intros k Hk. rewrite (g_ids c mask ids pos n nb nt bt h b _ idv (idx1 positions) HE Hflash) in Hk. apply in_seq in Hk. lia. }
  unfold minibatch. cbn [fst snd].
  (* gradients of the activations *)
  rewrite pyseq_cons. eapply acc_then.
  { apply nd_acc. apply (@clear_st E0 req acts (Mst P (Some l) kn) Gr s Hs).
    intros m Hm _. apply (proj2 (mo_nodes _ _ _ _ _ m_model m ltac:(apply in_or_app; left; rewrite OG; exact Hm)) eq_refl). }
  intros s1 _ H1. cbv beta in H1. rewrite pyseq_cons. eapply acc_then; [apply nd_acc; exact (copy_ids d _ s1 Hd H1)|].
  intros s2 _ H2.
  (* forward, loss, backward *)
  assert (EQ : forall f y q g : res (list (task XR)), pyseq [f; y; q; g] = pyseq [f; then_ y q; g]).
  { intros. rewrite !pyseq_cons. f_equal. rewrite then_assoc. reflexivity. }
  rewrite EQ, <- HP. unfold gpt2_loss, loss_val. rewrite (out_eq c mask ids pos n nb nt bt h lo b HB), (lid_eq c mask ids pos n nb nt bt h lo b HB).
  assert (Hnd := mo_ids _ _ _ _ _ m_model). apply NoDup_cons_iff in Hnd as [Nl Nd].
  set (lossr := then_ (copy_async (sy d) labels) (crossentropy_calc (Fin a) (PyModels.bt b (Val (first L + 4))) labels (PyModels.bt b (Tmp (5 + 8 * L) 1)) (PyModels.bt b (Tmp (5 + 8 * L) 2)) (PyModels.bt b (Tmp (5 + 8 * L) 0)) (PyModels.bt b (Grad (first L + 4))))).
  assert (LG : loss_good req runs_acc (map ly_id gl) (first L + 4) (5 + 8 * L) (Mst P (Some l) kn) (fun _ => True)
    (fun v => l + ce_loss a (c_vocab c) [n; nb] (idx2 (slab d)) v) (fun v i => match i with z :: idx => ce_grad a (c_vocab c) (idx2 (slab d)) v z idx | [] => 0 end) lossr).
  { destruct (Hdata d Hd) as [_ (Wy & Sy & By) _ (Dy1 & Dy2 & Dy3) Hr]. destruct Hlabels as [Sl Bl].
    refine (@ce_good_copied menv req (map ly_id gl) (first L + 4) (5 + 8 * L) (sy d) labels (idx2 (slab d)) (c_vocab c) [n; nb] (Mst P (Some l) kn) a l m_ce Nl _ Wy _ Dy2 (labels_free (stok d)) _ _).
    - cbn [Mst]. destruct (Nat.eq_dec (5 + 8 * L) (5 + 8 * L)); [|congruence]. reflexivity.
    - split; congruence.
    - intros s0 HK. split; [|].
      + cbn [K menv E1 benv] in HK. unfold bK, cs in HK. inversion HK as [|? ? _ HK']; subst. inversion HK'; assumption.
      + destruct (K0_data s0 d (K1_K0 _ _ HK) Hd) as (_ & K2 & _ & K4). split; assumption.
    - intros idx Hi. apply inb2_inv in Hi as (i & t & -> & Hi & Ht). apply Hr; assumption. }
  assert (GO : gradient_of (vshape (first L + 4)) (fun _ => True) (fun v => l + ce_loss a (c_vocab c) [n; nb] (idx2 (slab d)) v) (fun v i => match i with z :: idx => ce_grad a (c_vocab c) (idx2 (slab d)) v z idx | [] => 0 end)).
  { apply (@ce_gradient_s menv req (first L + 4) (5 + 8 * L) labels (idx2 (slab d)) (c_vocab c) [n; nb] a l m_ce).
    intros idx Hi. apply inb2_inv in Hi as (i & t & -> & Hi & Ht). apply (do_rng _ (Hdata d Hd)); assumption. }
  eapply acc_weaken.
  { eapply (@core_st menv req runs_acc kind_acc gl ps (first L + 4) (5 + 8 * L) (fun _ => True) _ _ lossr (penv ps P) (Mst P (Some l) kn) (cleared acts Gr) s2
      (mo_layers _ _ _ _ _ m_model) Nd Nl (mo_ordered _ _ _ _ _ m_model) PD (mo_o _ _ _ _ _ m_model)).
    - intros m Hm. apply (mo_nodes _ _ _ _ _ m_model). apply in_or_app. tauto.
    - intros m Hm. rewrite OG in Hm. unfold cleared. destruct (in_dec Nat.eq_dec m acts); [reflexivity|contradiction].
    - exact GO.
    - exact LG.
    - exact (v_dom c mask ids pos n nb nt bt h lo b _ idv (idx1 positions) G HB HE Heps m_cs Hids Hpos Hmask Hflash P Hsm).
    - exact Logic.I.
    - exact H2.
    - intros m Hm. cbn [Mst]. destruct (in_dec Nat.eq_dec m ps); [reflexivity|contradiction]. }
  clear LG GO. intros s3 _ (M' & G' & A1 & A2 & A3 & A4 & A5 & A6 & A7). exists G'. split.
  - apply has_forget with (tok := stok d). eapply has_sub; [exact A1|]. intros x f Ux Hf. destruct x as [m|m|k i]; cbn [known_out Mst ov] in *.
    + destruct (in_dec Nat.eq_dec m ps) as [Hm|]; [|discriminate]. rewrite A4.
      * cbn [Mst]. destruct (in_dec Nat.eq_dec m ps); [assumption|contradiction].
      * unfold leaf. rewrite OG. intros C. exact (NO _ C Hm).
    + destruct (in_dec Nat.eq_dec m acts); [discriminate|]. exact Hf.
    + destruct (Nat.eq_dec k (5 + 8 * L)) as [->|Nk].
      * destruct (Nat.eq_dec i 0) as [->|]; [|discriminate]. rewrite A3. rewrite m_loss. exact Hf.
      * destruct (kn k i) as [f'|] eqn:Ek; [|discriminate]. rewrite A5.
        -- cbn [Mst]. destruct (Nat.eq_dec k (5 + 8 * L)); [contradiction|]. rewrite Ek. assumption.
        -- intros C. apply IDS in C. specialize (Hkn k i f' Ek). lia.
        -- assumption.
  - intros j idx Hj Hi. unfold pval in Hi. rewrite Eb in Hi by assumption.
    assert (Hin : In (nth j ps O) ps) by (apply nth_In; rewrite PL; assumption).
    specialize (A6 _ idx Hin Hi). unfold cleared in A6. destruct (in_dec Nat.eq_dec (nth j ps O) acts) as [C|_]; [exfalso; exact (NO _ C Hin)|].
    unfold penv in A6 at 2. rewrite index_nth in A6 by (assumption || rewrite PL; assumption).
    eapply is_derive_ext; [|exact A6]. intros t. cbn beta. rewrite penv_vary by (assumption || rewrite PL; assumption). rewrite m_loss. reflexivity.
Qed.
End Mb.

(** ** One batch *)
Definition sum_ce (P : nat -> arr) (mbs : list sample) : R := fold_right (fun d z => mb_ce P d + z) 0 mbs.
Lemma mbs_runs P mbs : incl mbs data -> (forall d, In d mbs -> smooth_at P d) -> forall l kn Gr s,
  (forall k i f, kn k i = Some f -> (5 + 8 * L < k)%nat) -> has0 (known_out req acts (Mst P (Some l) kn) Gr) s ->
  runs_acc (pyseq (map (minibatch (map (bmom req b) acts) ids labels (bm_layers req b) (gpt2_loss a labels b)) (map (fun d => (sx d, sy d)) mbs))) s (fun s' => exists Gr',
    has0 (known_out req acts (Mst P (Some (l + sum_ce P mbs)) kn) Gr') s' /\
    forall j idx, (j < np)%nat -> inb (t_shape (pval b j)) idx ->
      is_derive (fun t => sum_ce (vary P j idx t) mbs) (P j idx) (Gr' (nth j ps O) idx - Gr (nth j ps O) idx)).
Proof.
  induction mbs as [|d mbs IH]; intros Hi Hsm l kn Gr s Hkn Hs; cbn [map sum_ce fold_right].
  - apply nd_acc, py_nil. exists Gr. split; [rewrite Rplus_0_r; assumption|]. intros j idx _ _. rewrite Rminus_diag_eq by reflexivity. apply (is_derive_const (K := R_AbsRing) (V := R_NormedModule)).
  - rewrite pyseq_cons. eapply acc_then; [apply (mb_runs d P (Hi d (or_introl eq_refl)) (Hsm d (or_introl eq_refl)) l kn Gr s Hkn Hs)|].
    intros s1 _ (G1 & H1 & D1). eapply acc_weaken.
    { apply (IH ltac:(intros x Hx; apply Hi; right; assumption) ltac:(intros x Hx; apply Hsm; right; assumption) _ kn G1 s1 Hkn H1). }
    intros s2 _ (G2 & H2 & D2). exists G2. split.
    + fold (sum_ce P mbs). rewrite <- Rplus_assoc. exact H2.
    + intros j idx Hj Hx. specialize (D1 j idx Hj Hx). specialize (D2 j idx Hj Hx).
      replace (G2 (nth j ps O) idx - Gr (nth j ps O) idx) with (((G1 (nth j ps O) idx - Gr (nth j ps O) idx) - 0) + (G2 (nth j ps O) idx - G1 (nth j ps O) idx)) by ring.
      eapply is_derive_ext; [|apply (is_derive_plus (K := R_AbsRing) (V := R_NormedModule)); [apply (is_derive_minus (K := R_AbsRing) (V := R_NormedModule)); [exact D1|apply (is_derive_const (K := R_AbsRing) (V := R_NormedModule)) with (a := l)]|exact D2]].
      intros t. unfold minus, plus, opp; cbn. unfold sum_ce. ring.
Qed.

(** The optimizer. *)
Variable o : optimizer.
Hypothesis Hok : opt_ok o.
Notation kid := (S (5 + 8 * L)).
Hypothesis Hopt : forall p j sh ba, In p ps -> In j (opt_kinds o kid) -> hast b (Val p) sh ba -> hast b (Tmp j p) sh ba.
Notation shapes := (param_shapes e (c_head c) h (c_inner c) (c_vocab c) (c_maxpos c) L).

Lemma shape_at j : (j < np)%nat -> t_shape (pval b j) = nth j shapes [].
Proof.
  intros Hj. rewrite <- (shapes_eq c mask ids pos n nb nt bt h lo b G HB). unfold pval.
  rewrite (nth_indep _ [] (t_shape (PyModels.bt b (Val O)))); [rewrite (map_nth (fun m => t_shape (PyModels.bt b (Val m)))); reflexivity|].
  rewrite map_length, (bm_params_eq c mask ids pos n nb nt bt h lo b HB), params_len. assumption.
Qed.
Lemma shapes_len : List.length shapes = np.
Proof. rewrite <- (shapes_eq c mask ids pos n nb nt bt h lo b G HB), map_length, (bm_params_eq c mask ids pos n nb nt bt h lo b HB), params_len. reflexivity. Qed.
Lemma p_hast p : In p ps -> exists sh ba, hast b (Val p) sh ba /\ hast b (Grad p) sh ba.
Proof.
  intros Hp. unfold g_params in Hp. apply in_app_or in Hp as [Hp|Hp]; [|apply in_app_or in Hp as [Hp|Hp]].
  - destruct Hp as [<-|[<-|[]]]; [destruct (gb_pre _ _ _ _ _ _ _ _ _ _ _ HB 0%nat _ eq_refl)|destruct (gb_pre _ _ _ _ _ _ _ _ _ _ _ HB 2%nat _ eq_refl)]; eexists; eexists; split; eassumption.
  - apply in_flat_map in Hp as (k & Hk & Hp). apply in_seq in Hk.
    assert (Hr : exists i tr, nth_error (block_nodes c n nb nt bt h) i = Some tr /\ p = (first k + i)%nat).
    { unfold block_params in Hp. repeat (destruct Hp as [<-|Hp]; [match goal with |- exists i tr, _ /\ ?q = _ => first [exists 0%nat; eexists; split; [reflexivity|lia]|idtac] end;
        match goal with |- exists i tr, _ /\ (first k + ?q)%nat = _ => exists q; eexists; split; reflexivity | _ => idtac end|]). destruct Hp. }
    destruct Hr as (i & tr & Hi & ->). destruct (gb_blk _ _ _ _ _ _ _ _ _ _ _ HB k i tr ltac:(lia) Hi). eexists; eexists; split; eassumption.
  - destruct Hp as [<-|[<-|[<-|[]]]]; [destruct (gb_post _ _ _ _ _ _ _ _ _ _ _ HB 1%nat _ eq_refl)|destruct (gb_post _ _ _ _ _ _ _ _ _ _ _ HB 2%nat _ eq_refl)|destruct (gb_post _ _ _ _ _ _ _ _ _ _ _ HB 3%nat _ eq_refl)]; eexists; eexists; split; eassumption.
Qed.
Lemma o_good : @opt_good E0 ps (o_sids kid) _ (@o_tasks E0 req ps kid o) (o_known ps kid o) (o_inv ps o) (o_new o) (o_next o).
Proof.
  apply (@optimizer_good E0 req ps kid o Hok (params_nodup c)). intros p Hp. destruct (p_hast p Hp) as (sh & ba & T1 & T2).
  destruct (hast_U b _ _ _ T1) as (U1 & S1 & B1), (hast_U b _ _ _ T2) as (U2 & S2 & B2). split; [|split; [reflexivity|]].
  - split; [exact U1|]. intros _. split; [exact U2|]. split; cbn [A E0 benv]; congruence.
  - intros j Hj. destruct (hast_U b _ _ _ (Hopt p j sh ba Hp Hj T1)) as (U3 & S3 & B3). split; [exact U3|]. split; cbn [A E0 benv]; congruence.
Qed.
Lemma acts_params q : In q acts -> ~ In q ps.
Proof.
  intros Hq Hp. set (tok := fun _ _ : Z => 0%Z). pose (HE := cs_env (CInt ids (idx2 tok)) eq_refl).
  assert (Hcs : In (CInt ids (idx2 tok)) (cs (CInt ids (idx2 tok))) /\ In (CInt pos (idx1 positions)) (cs (CInt ids (idx2 tok))) /\ In (CBool mask causal) (cs (CInt ids (idx2 tok)))) by (unfold cs; cbn [In]; tauto).
  pose proof (g_ordered c mask ids pos n nb nt bt h lo b _ (idx2 tok) (idx1 positions) HB HE Hcs Hids Hpos Hmask Hflash) as HO.
  rewrite <- (g_outs c mask ids pos n nb nt bt h lo b _ (idx2 tok) (idx1 positions) HB HE Hflash) in Hq. exact (ordered_fresh _ _ _ HO Hp Hq).
Qed.
Notation S2 m v := (penv ps m, penv ps v).

Lemma batch_runs it P m v l mbs s : incl mbs data -> (forall d, In d mbs -> smooth_at P d) -> o_inv ps o it (S2 m v) ->
  has0 (Mst P l (o_known ps kid o it (S2 m v))) s ->
  runs_acc (gpt2_batch a o ids labels b it mbs) s (fun s' => exists P' m' v',
    opt_update o shapes it (fun P => sum_ce P mbs) P m v P' m' v' /\
    o_inv ps o (it + 1) (S2 m' v') /\
    has0 (Mst P' (Some (sum_ce P mbs)) (o_known ps kid o (it + 1) (S2 m' v'))) s').
Proof.
  intros Hi Hsm Hinv Hs. set (kn := o_known ps kid o it (S2 m v)) in *.
  destruct o_good as [g1 g2 g3].
  assert (Hkn : forall k i f, kn k i = Some f -> (5 + 8 * L < k)%nat).
  { intros k i f Hf. destruct (g1 it (S2 m v) k i f Hf) as [[<-|[<-|[<-|[]]]] _]; lia. }
  destruct Hce as [C0 _]. destruct (hast_U b _ _ _ C0) as (U0 & S0 & B0).
  unfold gpt2_batch, train_batch. rewrite (bm_params_eq c mask ids pos n nb nt bt h lo b HB). cbn [app].
  rewrite pyseq_cons. eapply acc_then.
  { apply nd_acc. apply (@clear_tape E0 req ps _ s Hs). intros p Hp _. destruct (p_hast p Hp) as (sh & ba & _ & T2). apply (hast_U b _ _ _ T2). }
  intros s1 _ H1. cbv beta in H1. rewrite pyseq_cons. unfold loss_val. rewrite (lid_eq c mask ids pos n nb nt bt h lo b HB).
  eapply acc_then; [apply nd_acc; apply (@h_clear E0 _ s1 (Tmp (5 + 8 * L) 0) (fun _ => 0) H1 U0); reflexivity|].
  intros s2 _ H2. cbv beta in H2.
  assert (H2' : has0 (known_out req acts (Mst P (Some 0) kn) (fun _ _ => 0)) s2).
  { eapply has_sub; [exact H2|]. intros x f Ux Hf. destruct x as [q|q|k i]; cbn [known_out] in Hf.
    - rewrite upd_ne by discriminate. exact Hf.
    - rewrite upd_ne by discriminate. destruct (in_dec Nat.eq_dec q acts) as [|Ha]; [discriminate|].
      destruct (in_dec Nat.eq_dec q ps) as [|Np]; [exact Hf|]. exfalso. apply Np. exact (node_cases c mask ids pos n nb nt bt h lo b HB q Ux Ha).
    - unfold upd. destruct (gvar_dec (Tmp k i) (Tmp (5 + 8 * L) 0)) as [Eq|Ne].
      + assert (Ek : k = (5 + 8 * L)%nat /\ i = O) by (split; congruence). destruct Ek as [-> ->]. cbn [Mst] in Hf. destruct (Nat.eq_dec (5 + 8 * L) (5 + 8 * L)); [|congruence]. exact Hf.
      + cbn [Mst] in *. destruct (Nat.eq_dec k (5 + 8 * L)) as [->|]; [destruct (Nat.eq_dec i 0); [subst; congruence|discriminate]|exact Hf]. }
  clear H1 H2.
  rewrite pyseq_app. eapply acc_then; [apply (mbs_runs P mbs Hi Hsm 0 kn (fun _ _ => 0) s2 Hkn H2')|].
  intros s3 _ (Gr & H3 & D3). rewrite pyseq_1. rewrite Rplus_0_l in H3.
  set (g := fun j => Gr (nth j ps O)).
  eapply acc_weaken; [apply nd_acc; apply (g3 it (S2 m v) (known_out req acts (Mst P (Some (sum_ce P mbs)) kn) Gr) s3 (penv ps P) (penv ps g) Hinv H3)|].
  - intros p Hp. cbn [known_out Mst]. destruct (in_dec Nat.eq_dec p ps); [|contradiction]. split; [reflexivity|].
    destruct (in_dec Nat.eq_dec p acts) as [Ha|_]; [exfalso; exact (acts_params p Ha Hp)|].
    change (req p) with true. unfold penv, g. destruct (nth_index _ _ Hp) as [-> _]. reflexivity.
  - intros k i f Hf. cbn [known_out Mst]. destruct (Nat.eq_dec k (5 + 8 * L)) as [->|]; [specialize (Hkn _ _ _ Hf); lia|]. unfold kn. rewrite Hf. reflexivity.
  - intros s4 _ (M' & H4 & Q1 & Q2 & Q3 & Q4).
    exists (fun j i => rule_p o it (P j i) (g j i) (m j i) (v j i)), (fun j i => rule_m o it (P j i) (g j i) (m j i) (v j i)), (fun j i => rule_v o it (P j i) (g j i) (m j i) (v j i)).
    split; [|split].
    + exists g. split; [|repeat split]. intros j idx Hj Hx. rewrite shapes_len in Hj. rewrite <- shape_at in Hx by assumption.
      specialize (D3 j idx Hj Hx). rewrite Rminus_0_r in D3. exact D3.
    + exact (g2 it (S2 m v) (penv ps P) (penv ps g) Hinv).
    + eapply has_sub; [exact H4|]. intros x f Ux Hf. destruct x as [q|q|k i]; cbn [Mst] in Hf.
      * destruct (in_dec Nat.eq_dec q ps) as [Hq|]; [|discriminate]. rewrite <- Hf. apply (Q1 q Hq).
      * discriminate.
      * destruct (Nat.eq_dec k (5 + 8 * L)) as [->|Nk].
        -- rewrite Q3 by (intros [C|[C|[C|[]]]]; lia). cbn [known_out Mst]. destruct (Nat.eq_dec (5 + 8 * L) (5 + 8 * L)); [|congruence]. exact Hf.
        -- destruct (o_known ps kid o (it + 1) _ k i) as [f'|] eqn:Ek; [|discriminate]. rewrite <- Hf. apply Q4. exact Ek.
Qed.

(** ** All batches *)
Lemma train_runs batches : (forall mbs, In mbs batches -> incl mbs data) -> forall it P m v l s,
  (forall done mbs rest P1 m1 v1 hist, batches = done ++ mbs :: rest ->
     opt_iterates o shapes it (map (fun mbs P => sum_ce P mbs) done) P m v P1 m1 v1 hist -> forall d, In d mbs -> smooth_at P1 d) ->
  o_inv ps o it (S2 m v) -> has0 (Mst P l (o_known ps kid o it (S2 m v))) s ->
  runs_acc (gpt2_train a o ids labels b it batches) s (fun s' => exists P' m' v' hist,
    opt_iterates o shapes it (map (fun mbs P => sum_ce P mbs) batches) P m v P' m' v' hist /\
    has0 (Mst P' (match hist with [] => l | _ => Some (last hist 0) end) (o_known ps kid o (it + zlen batches) (S2 m' v'))) s').
Proof.
  induction batches as [|mbs rest IH]; intros Hi it P m v l s Hsm Hinv Hs; cbn [gpt2_train map opt_iterates].
  - apply nd_acc, nd_nop. exists P, m, v, []. split; [repeat split|]. change (zlen []) with 0%Z. rewrite Z.add_0_r. exact Hs.
  - eapply acc_then.
    { apply (batch_runs it P m v l mbs s (Hi mbs (or_introl eq_refl))); try assumption.
      apply (Hsm [] mbs rest P m v []); [reflexivity|]. repeat split. }
    intros s1 _ (P1 & m1 & v1 & U1 & I1 & H1). eapply acc_weaken.
    { apply (IH ltac:(intros x Hx; apply Hi; right; assumption) (it + 1)%Z P1 m1 v1 (Some (sum_ce P mbs)) s1); try assumption.
      intros done mbs' rest' P2 m2 v2 hist Eq Hit. apply (Hsm (mbs :: done) mbs' rest' P2 m2 v2 (sum_ce P mbs :: hist)); [rewrite Eq; reflexivity|].
      exists P1, m1, v1, hist. split; [assumption|]. split; [reflexivity|assumption]. }
    intros s2 _ (P' & m' & v' & hist & T1 & T2). exists P', m', v', (sum_ce P mbs :: hist). split.
    + exists P1, m1, v1, hist. split; [assumption|]. split; [reflexivity|assumption].
    + replace (last (sum_ce P mbs :: hist) 0) with (match hist with [] => sum_ce P mbs | _ => last hist 0 end) by (destruct hist; reflexivity).
      replace (it + zlen (mbs :: rest))%Z with (it + 1 + zlen rest)%Z by (rewrite zlen_cons; lia). destruct hist; exact T2.
Qed.
End Train.
