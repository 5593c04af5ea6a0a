(** * C63: a training step of MlpMixer, from the constructor to the gradients *)
From Coq Require Import Reals Lra FunctionalExtensionality Sorted.
From Coquelicot Require Import Coquelicot.
From Verif Require Import Base Spec Geometry Traits TraitsProofs Runtime Ops RealOps TensorSem ElemGeneric Concrete Axis SliceGeo XReals NdRuns AnyRuns RSum AttnSpec MatOps CrossEntropy XTriples HasRuns TapeMath VjpMath Tape PyLayers PyLinear PySimple PyNorm AttMath PyAttn Backprop CeLoss PropLayers PropModel PyModels BuildEnv GptBuild BuildModel GptSpec GptModel GptRun PropGpt Segments SegDiff PyMixer MixerRuns MixSpec MixerSeg PropMixer PyMixModels MixBuild MixModel.
Local Close Scope Z_scope.
Local Open Scope R_scope.

(** ** Models made of pieces, with the cross-entropy *)
Theorem seg_crossentropy {E : env} req (gs : list segment) (acts ns : list nat) (o lid : nat) labels lab n sh (a L0 : R) e G s :
  segs_ok req gs ns o lid -> incl (outs (lms (all_layers gs))) acts -> (forall n, In n acts -> req n = true -> U (Grad n)) ->
  ce_ok req o lid labels lab n sh -> dom (lms (all_layers gs)) e ->
  before req acts ns e G (upd (Tmp lid 0) (Some (fin (fun _ => L0))) (fun _ => None)) s ->
  runs_any (pyseq [clear_grads (map (node req) acts); model_forward (map sg_py gs);
      crossentropy_calc (Fin a) (A (Val o)) labels (A (Tmp lid 1)) (A (Tmp lid 2)) (A (Tmp lid 0)) (A (Grad o)); model_backward (map sg_py gs)]) s
    (after req (all_layers gs) acts ns o lid (fun v => L0 + a * Rsuml (all_idx sh) (fun idx => ln (Rsum n (fun k => exp (v (k :: idx)))) - v (lab idx :: idx))) e G).
Proof.
  intros Hm Hacts HU Hf HD Hs.
  apply (seg_backprop req runs_any kind_any gs acts ns o lid (fun _ => True) (fun v => L0 + ce_loss a n sh lab v)
    (fun v i => match i with l :: idx => ce_grad a n lab v l idx | [] => 0 end)
    (crossentropy_calc (Fin a) (A (Val o)) labels (A (Tmp lid 1)) (A (Tmp lid 2)) (A (Tmp lid 0)) (A (Grad o))) e G
    (upd (Tmp lid 0) (Some (fin (fun _ => L0))) (fun _ => None)) s); try assumption.
  - eapply ce_gradient_o. exact Hf.
  - eapply ce_good; [exact Hf| |].
    + pose proof (sk_ids _ _ _ _ _ Hm) as Hi. inversion Hi; assumption.
    + cbn [map_of]. apply upd_eq.
  - exact Logic.I.
  - intros r s0 P Q HP HPQ. eapply any_weaken; [exact HP|]. intros s' _. apply HPQ.
Qed.

Lemma mbuilt_ext C B bt E Q Qt V x n lo b b' : mbuilt C B bt E Q Qt V x n lo b ->
  binv lo b' -> ext b b' -> b_n b' = b_n b -> b_layers b' = b_layers b -> mbuilt C B bt E Q Qt V x n lo b'.
Proof.
  intros [q1 q2 q3 q4 q5 q6 q7 q8] B' X N L.
  assert (Hn : forall m tr, hasn b m tr -> hasn b' m tr) by (intros m tr [H1 H2]; split; eapply hast_ext; eassumption).
  split; try congruence; auto.
  intros j l i tr Hj Hi. eapply hast_ext; [exact X|]. eapply q8; eassumption.
Qed.

(** ** The state of the data in which a step starts *)
(** the parameter number [j] of the model, its gradient; the output of the model, and its gradient; the value of the loss *)
Definition mpval (os : list mobj) (b : build) (j : nat) : tensor := bt b (Val (nth j (mm_params os) O)).
Definition mpgrad (os : list mobj) (b : build) (j : nat) : tensor := bt b (Grad (nth j (mm_params os) O)).

Record mixer_state (os : list mobj) (b : build) (x labels : tensor) (C B Q : Z) (X : arr) (lab : Z -> Z) (np : nat) (P G : nat -> arr) (L0 : R) (s : store XR) : Prop := {
  ms_alloc : forall v t, b_mem b v = Some t -> stored KF s t;
  ms_x : forall c t q, (0 <= c < C)%Z -> (0 <= t < B)%Z -> (0 <= q < Q)%Z -> elem s x [c; t; q] = Fin (X [c; t; q]);
  ms_labels : stored KI s labels /\ forall t, (0 <= t < B)%Z -> ielem s labels [t] = lab t;
  ms_params : forall j idx, (j < np)%nat -> inb (t_shape (mpval os b j)) idx -> elem s (mpval os b j) idx = Fin (P j idx);
  ms_grads : forall j idx, (j < np)%nat -> inb (t_shape (mpgrad os b j)) idx -> elem s (mpgrad os b j) idx = Fin (G j idx);
  ms_loss : elem s (loss_val b) [] = Fin L0
}.

(** training step: clear_activations_grads, forward pass, loss, backward pass *)
Definition mixer_step (a : R) (os : list mobj) (labels : tensor) (b : build) : res (list (task XR)) :=
  pyseq [mm_clear_activations mreq b os; mm_forward mreq b os;
         crossentropy_calc (Fin a) (bt b (Val (last_out os))) labels (bt b (Tmp (lid b) 1)) (bt b (Tmp (lid b) 2)) (loss_val b) (bt b (Grad (last_out os)));
         mm_backward mreq b os].

Section Step.
Variables (C B bt E Q Qt V : Z) (x labels : tensor) (n : nat) (lo : Z) (b : build).
Hypothesis HG : mdims C B bt E Q Qt V.
Hypothesis HB : mbuilt C B bt E Q Qt V x n lo b.
Hypothesis Hx : t_shape x = [C; B; Q] /\ t_base x = [C; bt; Qt].
Hypothesis Hlabels : t_shape labels = [B] /\ t_base labels = [bt].
Hypothesis Hwf : wf_tensor labels.
Hypothesis Hdisj : forall v t, b_mem b v = Some t -> disj labels t.
Notation L := n. Notation F := (mfirst n).
Hypothesis Hce : hast b (Tmp (2 + 8 * L) 0) [] [] /\ hast b (Tmp (2 + 8 * L) 1) [2; B]%Z [2; bt]%Z /\ hast b (Tmp (2 + 8 * L) 2) [B] [bt].
Notation os := (all_objs n).

Lemma mlid_eq : lid b = (2 + 8 * n)%nat.
Proof. unfold lid. rewrite (mb_layers _ _ _ _ _ _ _ _ _ _ _ HB), !app_length, mixers_len. cbn [List.length mix_pre]. lia. Qed.
Lemma mout_eq : last_out os = (F + 3)%nat.
Proof.
  unfold all_objs. change [OGap (F - 1) (F + 1) F; OLayer (1 + 8 * n) (head_layer F)] with ([OGap (F - 1) (F + 1) F] ++ [OLayer (1 + 8 * n) (head_layer F)]).
  rewrite app_assoc, last_out_snoc. reflexivity.
Qed.
Lemma mshapes_eq : map (fun m => t_shape (PyModels.bt b (Val m))) (mm_params os) = mixer_shapes C E Q V n.
Proof.
  rewrite (mm_params_eq n). unfold m_params, mixer_shapes. rewrite !map_app. f_equal; [|f_equal].
  - cbn [map]. destruct (mb_pre _ _ _ _ _ _ _ _ _ _ _ HB 0%nat _ eq_refl) as [N0 _]. destruct (hast_U b _ _ _ N0) as (_ & S0 & _). cbn [fst] in S0. rewrite <- S0. reflexivity.
  - set (sh := [[E]; [E]; [4 * C; C]; [C; 4 * C]; [E]; [E]; [E; 4 * E]; [4 * E; E]]%Z).
    assert (HK : forall k, (k <= n)%nat -> map (fun m => t_shape (PyModels.bt b (Val m))) (flat_map (fun k => mix_params (mfirst k)) (seq 0 k)) = List.concat (repeat sh k)).
    { induction k as [|k IH]; intros Hk; [reflexivity|]. rewrite seq_last, map_app, IH by lia.
      replace (repeat sh (S k)) with (repeat sh k ++ [sh]) by (cbn [repeat]; rewrite <- repeat_cons; reflexivity).
      rewrite concat_app. f_equal. cbn [List.concat]. rewrite app_nil_r.
      assert (HS : forall i tr, nth_error (mix_nodes C B bt E) i = Some tr -> t_shape (PyModels.bt b (Val (mfirst k + i))) = fst tr).
      { intros i tr Hi. destruct (mb_blk _ _ _ _ _ _ _ _ _ _ _ HB k i tr ltac:(lia) Hi) as [N0 _]. apply (hast_U b _ _ _ N0). }
      unfold mix_params, sh. cbn [map].
      rewrite (HS 1%nat _ eq_refl), (HS 2%nat _ eq_refl), (HS 3%nat _ eq_refl), (HS 6%nat _ eq_refl), (HS 9%nat _ eq_refl), (HS 10%nat _ eq_refl), (HS 11%nat _ eq_refl), (HS 14%nat _ eq_refl).
      cbn [fst]. rewrite (Z.mul_comm C 4), (Z.mul_comm E 4). reflexivity. }
    apply HK. lia.
  - cbn [map]. destruct (mb_post _ _ _ _ _ _ _ _ _ _ _ HB 2%nat _ eq_refl) as [N0 _]. destruct (hast_U b _ _ _ N0) as (_ & S0 & _). cbn [fst] in S0. rewrite <- S0. reflexivity.
Qed.

(** the nodes whose gradients clear_activations_grads clears *)
Definition m_acts : list nat := mm_acts os ++ flat_map obj_temps os.
Lemma in_acts m : In m m_acts <-> m = 0%nat \/ In m (m_outs n).
Proof.
  assert (EO : map obj_out os = [2%nat] ++ map (fun k => (mfirst k + 15)%nat) (seq 0 n) ++ [(F + 1)%nat; (F + 3)%nat]).
  { unfold all_objs, mix_objs. rewrite map_app. cbn [map app obj_out ld_out head_layer]. f_equal. rewrite map_map. reflexivity. }
  assert (ET : flat_map obj_temps os = mixers_outs n ++ [F]).
  { unfold all_objs, mix_objs. rewrite flat_map_app. cbn [flat_map app obj_temps]. f_equal. unfold mixers_outs. generalize (seq 0 n) as l. induction l as [|k l IH]; [reflexivity|]. cbn [map flat_map]. rewrite IH. f_equal. }
  unfold m_acts, mm_acts. rewrite EO, ET, in_mouts. unfold mixers_outs. rewrite in_app_iff. cbn [In app]. rewrite !in_app_iff, in_map_iff, in_mblocks. cbn [In]. split.
  - intros [[H|[H|[(k & H1 & H2)|H]]]|[(k & H1 & H2)|H]]; try lia.
    + right. right. left. exists k. apply in_seq in H2. split; [lia|]. rewrite <- H1. cbn [mix_outs In]. lia.
    + right. right. left. exists k. split; assumption.
  - intros [H|[H|[(k & H1 & H2)|H]]]; try lia. right. left. exists k. split; assumption.
Qed.

Variables (X : arr) (lab : Z -> Z) (P Gr : nat -> arr) (a L0 : R) (s : store XR).
Hypothesis Hlab : forall t, (0 <= t < B)%Z -> (0 <= lab t < V)%Z.
Notation np := (2 + 8 * n)%nat.
Hypothesis Hs : mixer_state os b x labels C B Q X lab np P Gr L0 s.
Notation model P := (mixer_logits C E Q mixer_eps X P n).
Notation loss P := (L0 + a * class_cross_entropy B V lab (model P)).
Let cs := [CInt labels (idx1 lab)].
Lemma mstep_env : benv_ok b cs.
Proof.
  destruct (mb_inv _ _ _ _ _ _ _ _ _ _ _ HB) as [i1 i2 i3 i4 i5]. split; [exact i2|exact i4| |].
  - intros k [<-|[]]; assumption.
  - intros k v t [<-|[]] Hv. apply (Hdisj v t Hv).
Qed.
Lemma mstep_K : Forall (c_holds s) cs.
Proof.
  destruct (ms_labels _ _ _ _ _ _ _ _ _ _ _ _ _ _ Hs) as [a1 b1]. repeat apply Forall_cons; try apply Forall_nil. split; [assumption|].
  rewrite (proj1 Hlabels). intros idx Hi. apply inb1_inv in Hi as (i & -> & Hi). apply b1; assumption.
Qed.
Instance menv : env := benv b cs mstep_env.
Notation gs := (m_segs C B bt E Q V n b cs mstep_env).
Notation gl := (all_layers gs).
Notation ns := (0%nat :: m_params n).
Lemma mstep_ok : segs_ok mreq gs ns (F + 3) (2 + 8 * n).
Proof. exact (m_segs_ok C B bt E Q Qt V x n lo b cs HB mstep_env Hx). Qed.
Lemma mouts : outs (lms gl) = m_outs n.
Proof. apply m_outs_eq. Qed.
Lemma mstep_ce : ce_ok mreq (F + 3) (2 + 8 * n) labels (idx1 lab) V [B].
Proof.
  destruct Hce as (C0 & C1 & C2). destruct (mb_post _ _ _ _ _ _ _ _ _ _ _ HB 3%nat _ eq_refl) as [N1 N2]. cbn [fst snd] in N1, N2.
  destruct (hast_U b _ _ _ C0) as (U0 & S0 & B0), (hast_U b _ _ _ C1) as (U1 & S1 & B1), (hast_U b _ _ _ C2) as (U2 & S2 & B2),
    (hast_U b _ _ _ N1) as (U3 & S3 & B3), (hast_U b _ _ _ N2) as (U4 & S4 & B4).
  destruct Hlabels as [El1 El2].
  split.
  - apply (sk_nodes _ _ _ _ _ mstep_ok). apply in_or_app. left. apply (sk_o _ _ _ _ _ mstep_ok).
  - apply mreq_S. lia.
  - intros i Hi. destruct i as [|[|[|i]]]; [exact U0|exact U1|exact U2|lia].
  - apply Hwf.
  - intros v Hv. destruct (bU_inv b v Hv) as (t & Et & Eb). change (A v) with (PyModels.bt b v). rewrite Eb. apply (Hdisj v t Et).
  - split; cbn [A menv benv]; rewrite ?El2; try (split; assumption); try assumption. split; congruence.
  - intros s0 HK. assert (In (CInt labels (idx1 lab)) cs) as Hin by (left; reflexivity).
    cbn [K menv benv] in HK. unfold bK in HK. rewrite Forall_forall in HK. specialize (HK _ Hin). cbn [c_holds] in HK. rewrite El1 in HK. exact HK.
  - intros idx Hi. apply inb1_inv in Hi as (i & -> & Hi). apply Hlab; assumption.
Qed.
Notation e0 P := (penv ns (xp X P)).
Lemma mstep_eval P' : forall v t, (0 <= v < V)%Z -> (0 <= t < B)%Z -> eval (lms gl) (e0 P') (F + 3) [v; t] = model P' v t.
Proof. intros v t Hv Ht. exact (v_logits C B bt E Q Qt V x n lo b cs HG HB mstep_env X P' v t Hv Ht). Qed.
Lemma mstep_loss P' : L0 + a * Rsuml (all_idx [B]) (fun idx => ln (Rsum V (fun k => exp (eval (lms gl) (e0 P') (F + 3) (k :: idx)))) - eval (lms gl) (e0 P') (F + 3) (idx1 lab idx :: idx)) = loss P'.
Proof.
  rewrite sum1 by apply HG. unfold class_cross_entropy. f_equal. f_equal. apply Rsum_ext. intros t Ht. cbn [idx1].
  rewrite mstep_eval by (assumption || apply Hlab; assumption). f_equal. f_equal. apply Rsum_ext. intros v Hv. rewrite mstep_eval by assumption. reflexivity.
Qed.
Ltac inn := first [left; lia|right; inn].
Lemma mnode_cases m : bU b (Grad m) -> mreq m = true -> ~ In m m_acts -> In m (m_params n).
Proof.
  intros HU Hr Ho. rewrite in_acts in Ho. assert (H0 : m <> 0%nat) by (intros ->; discriminate). assert (Ho' : ~ In m (m_outs n)) by tauto. clear Ho.
  assert (Hm : (m < F + 4)%nat).
  { destruct (Nat.lt_ge_cases m (F + 4)) as [|Hge]; [assumption|]. exfalso. apply HU.
    apply (bi_fresh _ _ (mb_inv _ _ _ _ _ _ _ _ _ _ _ HB)). rewrite (mb_n _ _ _ _ _ _ _ _ _ _ _ HB). assumption. }
  rewrite in_mouts in Ho'. apply in_mparams. destruct (Nat.lt_ge_cases m 3) as [H5|H5]; [left; lia|]. right. destruct (Nat.lt_ge_cases m F) as [HL|HL]; [left|right; lia].
  pose (k := ((m - 3) / 16)%nat). assert (Ek : m = (mfirst k + (m - 3) mod 16)%nat) by (unfold mfirst, k; pose proof (Nat.div_mod (m - 3) 16); lia).
  assert (Hr' : ((m - 3) mod 16 < 16)%nat) by (apply Nat.mod_upper_bound; lia). assert (Hk : (k < n)%nat) by (unfold mfirst in *; lia).
  exists k. split; [assumption|]. assert (Nb : ~ In m (mix_outs (mfirst k))) by (intros K; apply Ho'; right; left; exists k; split; assumption).
  clearbody k. clear - Ek Hr' Nb. revert Ek Hr'. generalize ((m - 3) mod 16)%nat as r. intros r Ek Hr. subst m. unfold mix_outs, mix_params in *.
  do 16 (destruct r as [|r]; [first [solve [inn]|exfalso; apply Nb; solve [inn]]|]). lia.
Qed.
Lemma mixer_step_runs : runs_any (mixer_step a os labels b) s (fun s' =>
    (forall v t, (0 <= v < V)%Z -> (0 <= t < B)%Z -> elem s' (PyModels.bt b (Val (last_out os))) [v; t] = Fin (model P v t)) /\
    elem s' (loss_val b) [] = Fin (loss P) /\
    exists G' : nat -> arr, forall j idx, (j < np)%nat -> inb (t_shape (mpval os b j)) idx ->
      elem s' (mpval os b j) idx = Fin (P j idx) /\ elem s' (mpgrad os b j) idx = Fin (G' j idx) /\
      is_derive (fun t => loss (vary P j idx t)) (P j idx) (G' j idx - Gr j idx)).
Proof.
  assert (Eb : mm_params os = m_params n) by apply mm_params_eq.
  assert (PL := mparams_len n). assert (PD := mparams_nodup n).
  destruct Hs as [z1 z2 z3 z4 z5 z6]. unfold mpval, mpgrad in *. rewrite Eb in *.
  set (G0 := xp (fun _ => 0) Gr).
  pose proof (seg_crossentropy mreq gs m_acts ns (F + 3) (2 + 8 * n) labels (idx1 lab) V [B] a L0 (e0 P) (penv ns G0) s) as T.
  assert (HR : runs_any (mixer_step a os labels b) s (after mreq gl m_acts ns (F + 3) (2 + 8 * n) (fun v => L0 + a * Rsuml (all_idx [B]) (fun idx => ln (Rsum V (fun k => exp (v (k :: idx)))) - v (idx1 lab idx :: idx))) (e0 P) (penv ns G0))).
  { unfold mixer_step, mm_clear_activations, mm_forward, mm_backward, loss_val. rewrite <- (segs_py C B bt E Q V n b cs mstep_env), mout_eq, mlid_eq. apply T; clear T.
    - exact mstep_ok.
    - rewrite mouts. intros m Hm. apply in_acts. right. assumption.
    - intros m Hm Hr. apply in_acts in Hm as [->|Hm]; [discriminate|]. exact (proj1 (proj2 (sk_nodes _ _ _ _ _ mstep_ok m ltac:(apply in_or_app; left; rewrite mouts; exact Hm)) Hr)).
    - exact mstep_ce.
    - apply m_dom.
    - split.
      + split; [exact mstep_K|]. intros v Hv. destruct (bU_inv b v Hv) as (t & Et & Ebt). cbn [A menv benv]. rewrite Ebt. eapply z1; exact Et.
      + intros m Hm idx Hi. destruct Hm as [<-|Hm].
        * assert (E0 : A (Val 0) = x) by (cbn [A menv benv]; unfold PyModels.bt; rewrite (mb_x _ _ _ _ _ _ _ _ _ _ _ HB); reflexivity). rewrite E0 in Hi |- *. rewrite (proj1 Hx) in Hi.
          apply inb3_inv in Hi as (c & t & q & -> & Hc & Ht & Hq). apply z2; assumption.
        * destruct (nth_index _ _ Hm) as [E1 E2]. cbn [A menv benv] in *. specialize (z4 (index m (m_params n)) idx). rewrite PL in E2.
          rewrite E1 in z4. unfold fin, penv. cbn [index]. destruct (Nat.eq_dec 0 m) as [<-|_]; [exfalso; inversion PD; contradiction|]. apply z4; assumption.
      + intros m HU Hr Hm idx Hi. pose proof (mnode_cases m HU Hr Hm) as Hp. destruct (nth_index _ _ Hp) as [E1 E2]. cbn [A menv benv] in *. specialize (z5 (index m (m_params n)) idx). rewrite PL in E2.
        rewrite E1 in z5. unfold fin, penv. cbn [index]. destruct (Nat.eq_dec 0 m) as [<-|_]; [exfalso; inversion PD; contradiction|]. apply z5; assumption.
      + intros k i f Hk Hf. unfold upd in Hf. destruct (gvar_dec (Tmp k i) (Tmp (2 + 8 * n) 0)) as [E'|]; [|discriminate]. assert (Ek : k = (2 + 8 * n)%nat /\ i = O) by (split; congruence). destruct Ek as [-> ->]. injection Hf as <-.
        intros idx Hi. destruct Hce as [C0 _]. destruct (hast_U b _ _ _ C0) as (_ & S0 & _). cbn [A menv benv] in *. rewrite S0 in Hi. apply inb_nil in Hi as ->.
        unfold loss_val in z6. rewrite mlid_eq in z6. exact z6. }
  eapply any_weaken; [exact HR|]. clear T HR. intros s' _ (A1 & A2 & A3 & G' & A4 & A5 & A6).
  destruct (mb_post _ _ _ _ _ _ _ _ _ _ _ HB 3%nat _ eq_refl) as [N1 _]. cbn [fst snd] in N1. destruct (hast_U b _ _ _ N1) as (_ & S3 & _).
  destruct Hce as [C0 _]. destruct (hast_U b _ _ _ C0) as (U0 & S0 & _).
  split; [|split].
  - intros v t Hv Ht. rewrite mout_eq. specialize (A1 (F + 3)%nat). unfold value in A1. cbn [A menv benv] in A1. rewrite <- (mstep_eval P v t Hv Ht).
    apply (A1 ltac:(apply in_or_app; left; apply (sk_o _ _ _ _ _ mstep_ok))). rewrite S3. repeat apply Forall2_cons; try assumption. apply Forall2_nil.
  - unfold loss_val. rewrite mlid_eq, <- mstep_loss. exact (A2 U0 [] ltac:(cbn [A menv benv]; rewrite S0; constructor)).
  - exists (fun j => G' (nth j (m_params n) O)). intros j idx Hj Hi.
    assert (Hin : In (nth j (m_params n) O) (m_params n)) by (apply nth_In; rewrite PL; assumption).
    assert (Hr : mreq (nth j (m_params n) O) = true) by (apply mreq_S; destruct (nth j (m_params n) O); [exfalso; inversion PD; contradiction|lia]).
    assert (Hsj : (S j < List.length ns)%nat) by (cbn [List.length]; rewrite PL; lia).
    split; [|split].
    + etransitivity; [exact (A3 _ (or_intror Hin) idx Hi)|]. unfold fin, penv. change (nth j (m_params n) O) with (nth (S j) ns O). rewrite index_nth by assumption. reflexivity.
    + destruct (sk_nodes _ _ _ _ _ mstep_ok (nth j (m_params n) O) ltac:(apply in_or_app; right; right; assumption)) as [_ Hg]. destruct (Hg Hr) as [Ug Sg].
      apply (A4 _ Ug Hr). destruct Sg as [Sg _]. cbn [A menv benv] in *. rewrite Sg. exact Hi.
    + specialize (A5 _ idx (or_intror Hin) Hi). destruct (in_dec Nat.eq_dec (nth j (m_params n) O) m_acts) as [Hc|_].
      { exfalso. apply in_acts in Hc as [Hc|Hc]; [rewrite Hc in Hr; discriminate|]. exact (mparams_outs n _ (or_intror Hin) Hc). }
      change (nth j (m_params n) O) with (nth (S j) ns O) in A5. unfold penv in A5 at 3 4. rewrite index_nth in A5 by assumption.
      eapply is_derive_ext; [|exact A5]. intros t. cbn beta. rewrite penv_vary by assumption.
      replace (vary (xp X P) (S j) idx t) with (xp X (vary P j idx t)); [apply mstep_loss|].
      apply functional_extensionality. intros [|m]; unfold vary; cbn [xp]; [destruct (Nat.eq_dec 0 (S j)); [lia|reflexivity]|].
      destruct (Nat.eq_dec m j), (Nat.eq_dec (S m) (S j)); try lia; reflexivity.
Qed.
End Step.

(** ** C63 *)
(** [x]: the input, with C channels, B samples and Q features, the channels in one tile.  Both
    constructors succeed; and whenever all tensors made are allocated, [x] holds X, [labels] holds
    classes in range, the parameters hold [P], their gradients [G] and the value of the loss is L0,
    then after every execution of a training step (every order of tasks allowed by the declared
    accesses) the output holds the logits, the loss has grown by the scaled cross-entropy, the
    parameters are as before, and the gradient of each parameter has grown by the derivative of
    the loss in it, entry by entry. *)
Theorem C63_mlp_mixer_training_step C B bt E Q Qt V x layers next :
  mdims C B bt E Q Qt V -> (0 < layers)%nat -> wf_tensor x -> tens x [C; B; Q] [C; bt; Qt] -> (forall k, In k (tile_handles x) -> (k < next)%Z) ->
  exists os b0 labels b,
    mlp_mixer x E layers V next = Ok (os, b0) /\ gen_cross_entropy (last_out os) b0 = Ok (labels, b) /\
    wf_tensor labels /\ t_shape labels = [B] /\
    map (fun m => t_shape (PyModels.bt b (Val m))) (mm_params os) = mixer_shapes C E Q V layers /\
    forall X lab P G a L0 s,
      let np := (2 + 8 * layers)%nat in
      let model := fun P => mixer_logits C E Q (/ 100000) X P layers in
      let loss := fun P => L0 + a * class_cross_entropy B V lab (model P) in
      (forall t, (0 <= t < B)%Z -> (0 <= lab t < V)%Z) ->
      mixer_state os b x labels C B Q X lab np P G L0 s ->
      runs_any (mixer_step a os labels b) s (fun s' =>
        (forall v t, (0 <= v < V)%Z -> (0 <= t < B)%Z -> elem s' (PyModels.bt b (Val (last_out os))) [v; t] = Fin (model P v t)) /\
        elem s' (loss_val b) [] = Fin (loss P) /\
        exists G' : nat -> arr, forall j idx, (j < np)%nat -> inb (t_shape (mpval os b j)) idx ->
          elem s' (mpval os b j) idx = Fin (P j idx) /\ elem s' (mpgrad os b j) idx = Fin (G' j idx) /\
          is_derive (fun t => loss (vary P j idx t)) (P j idx) (G' j idx - G j idx)).
Proof.
  intros HG Hn Wx Tx Hh.
  assert (Hlo : exists lo, (lo <= next)%Z /\ forall k, In k (tile_handles x) -> (lo <= k)%Z).
  { clear - next. induction (tile_handles x) as [|k l (lo & H1 & H2)]; [exists next; split; [lia|intros ? []]|]. exists (Z.min lo k). split; [lia|]. intros k' [<-|H]; [lia|]. specialize (H2 _ H). lia. }
  destruct Hlo as (lo & Hlo & Hlo'). assert (Hr : forall k, In k (tile_handles x) -> (lo <= k < next)%Z) by (intros k Hk; auto).
  pose proof (mlp_mixer_ok C B bt E Q Qt V HG x layers lo next Hn Wx Tx Hlo Hr) as H1. unfold okp in H1. destruct (mlp_mixer x E layers V next) as [[os b0]| |] eqn:E1; try contradiction.
  destruct H1 as (-> & HB & Ht).
  assert (El := mlid_eq C B bt E Q Qt V x layers lo b0 HB). assert (Eo := mout_eq layers).
  destruct (mb_post _ _ _ _ _ _ _ _ _ _ _ HB 3%nat _ eq_refl) as [N1 _]. cbn [fst snd] in N1.
  assert (HF : fit [V; B] [V; bt]) by (destruct HG; apply fit2; assumption).
  pose proof (gen_ce_ok lo (mfirst layers + 3) V [B] [bt] b0 (mb_inv _ _ _ _ _ _ _ _ _ _ _ HB) Ht N1 HF) as H2.
  unfold okp in H2. rewrite <- Eo in H2. destruct (gen_cross_entropy (last_out (all_objs layers)) b0) as [[labels b]| |] eqn:E2; try contradiction.
  destruct H2 as (HI & HX & Hn' & HL & HA & Wl & (Sl & Bl & _) & _ & Dl & C0 & C1 & C2 & _). rewrite El in C0, C1, C2.
  assert (HB' := mbuilt_ext _ _ _ _ _ _ _ _ _ _ _ _ HB HI HX Hn' HL).
  exists (all_objs layers), b0, labels, b. repeat (split; [first [reflexivity|assumption]|]). split; [apply (mshapes_eq C B bt E Q Qt V x layers lo b HB')|].
  intros X lab P G a L0 s np model loss Hlab Hs. destruct Tx as (Tx1 & Tx2 & _).
  apply (mixer_step_runs C B bt E Q Qt V x labels layers lo b HG HB' (conj Tx1 Tx2) (conj Sl Bl) Wl Dl (conj C0 (conj C1 C2)) X lab P G a L0 s Hlab Hs).
Qed.
