(** * C61: training of GPT2, from the constructors to the trained parameters *)
From Coq Require Import Reals Lra FunctionalExtensionality Sorted.
From Coquelicot Require Import Coquelicot.
From Verif Require Import Base Spec Geometry Traits TraitsProofs Runtime Ops RealOps TensorSem OneOut ElemOps ElemGeneric Concrete Axis SliceGeo Sequence XReals NdRuns AnyRuns Serial2 RSum AttnSpec MatOps PropElem IntCopy CrossEntropy XTriples HasRuns TapeMath VjpMath Tape PyLayers PyLinear PySimple PyNorm AttMath PyAttn PyFlash Backprop CeLoss PropModel PyTrain PropTrain PyAdam PropAdam PyModels BuildEnv GptBuild BuildModel OptBuild GptSpec GptModel GptEval GptRun PropGpt GptTrain OptState.
Local Close Scope Z_scope.
Local Open Scope R_scope.

(** ** The state of the data between batches *)
(** All tensors made are allocated, [pos] and [mask] hold what they should, the tensors of the
    minibatches [data] hold their tokens and labels, the parameters hold [P].  Nothing is asked of
    the contents of [ids], [labels], of gradients, activations, loss and of the tensors of the
    optimizer. *)
Record gpt2_ready (ids pos mask labels : tensor) (b : build) (n nb : Z) (positions : Z -> Z) (data : list sample)
  (np : nat) (P : nat -> arr) (s : store XR) : Prop := {
  gr_alloc : forall x t, b_mem b x = Some t -> stored KF s t;
  gr_ids : stored KI s ids;
  gr_labels : stored KI s labels;
  gr_pos : stored KI s pos /\ forall i, (0 <= i < n)%Z -> ielem s pos [i] = positions i;
  gr_mask : stored KB s mask /\ forall i j, (0 <= i < n)%Z -> (0 <= j < n)%Z -> belem s mask [i; j] = (i <=? j)%Z;
  gr_data : forall d, In d data -> stored KI s (sx d) /\ stored KI s (sy d) /\
    forall i t, (0 <= i < n)%Z -> (0 <= t < nb)%Z -> ielem s (sx d) [i; t] = stok d i t /\ ielem s (sy d) [i; t] = slab d i t;
  gr_params : forall j idx, (j < np)%nat -> inb (t_shape (pval b j)) idx -> elem s (pval b j) idx = Fin (P j idx)
}.

(** ** C69 for GPT2: as C69_deep_relu_resumed_training in PropRelu.v *)
Theorem C69_gpt2_resumed_training c ids pos n nb nt bt h next o :
  gdims c n nb nt bt h -> 0 < c_eps c -> (c_flash c = true -> (nt | n)%Z /\ (bt | nb)%Z) -> opt_ok o ->
  wf_tensor ids -> t_shape ids = [n; nb] -> t_base ids = [nt; bt] -> (forall k, In k (tile_handles ids) -> (k < next)%Z) ->
  wf_tensor pos -> t_shape pos = [n] -> t_base pos = [nt] -> (forall k, In k (tile_handles pos) -> (k < next)%Z) -> disj ids pos ->
  exists mask b0 labels b1 b,
    gpt2 c ids pos next = Ok (mask, b0) /\ gen_cross_entropy (out_node b0) b0 = Ok (labels, b1) /\
    opt_new o (S (lid b1)) (bm_params b1) b1 = Ok b /\
    let shapes := param_shapes (c_embed c) (c_head c) h (c_inner c) (c_vocab c) (c_maxpos c) (c_layers c) in
    map (fun m => t_shape (PyModels.bt b (Val m))) (bm_params b) = shapes /\
    forall positions data past batches a P0 P m v past_hist s,
      let np := (5 + 16 * c_layers c)%nat in
      let state := fun d => states (c_embed c) (c_head c) h n (c_inner c) (c_eps c) (act_fun (c_act c)) (stok d) positions in
      let model := fun d P => logits (c_embed c) (c_head c) h n (c_inner c) (c_eps c) (act_fun (c_act c)) (stok d) positions P (c_layers c) in
      let loss := fun mbs P => fold_right (fun d z => a * cross_entropy n nb (c_vocab c) (slab d) (model d P) + z) 0 mbs in
      let zero := fun (_ : nat) (_ : list Z) => 0 in
      let it := (opt_first o + zlen past)%Z in
      opt_iterates o shapes (opt_first o) past P0 zero zero P m v past_hist ->
      (past <> [] -> opt_state o b (bm_params b) (S (lid b)) m v s) ->
      (forall d, In d data -> data_ok c ids labels n nb nt bt b d) ->
      (forall i, (0 <= i < n)%Z -> (0 <= positions i < c_maxpos c)%Z) ->
      (forall mbs, In mbs batches -> incl mbs data) ->
      (forall done mbs rest P1 m1 v1 hist, batches = done ++ mbs :: rest ->
         opt_iterates o shapes (opt_first o) (past ++ map loss done) P0 zero zero P1 m1 v1 hist -> forall d, In d mbs ->
         c_act c = Relu -> forall k i x t, (k < c_layers c)%nat -> (0 <= i < c_inner c)%Z -> (0 <= x < n)%Z -> (0 <= t < nb)%Z ->
         preactivation (c_embed c) (c_head c) h n (c_eps c) P1 (2 + 16 * k) (state d P1 k) i x t <> 0) ->
      gpt2_ready ids pos mask labels b n nb positions data np P s ->
      runs_acc (gpt2_train a o ids labels b it batches) s (fun s' => exists P' m' v' hist,
        opt_iterates o shapes (opt_first o) (past ++ map loss batches) P0 zero zero P' m' v' (past_hist ++ hist) /\
        gpt2_ready ids pos mask labels b n nb positions data np P' s' /\
        (past ++ map loss batches <> [] -> opt_state o b (bm_params b) (S (lid b)) m' v' s') /\
        (batches <> [] -> elem s' (loss_val b) [] = Fin (last hist 0))).
Proof.
  intros HG Heps Hfl Ho Wi Si Bi Hi Wp Sp Bp Hp Dip.
  pose proof (gpt2_ok c ids pos n nb nt bt h next HG Si Bi Sp Bp) as H1. unfold okp in H1. destruct (gpt2 c ids pos next) as [[mask b0]| |] eqn:E1; try contradiction.
  destruct H1 as (lo & Hlo & Wm & (Sm & Bm & _) & Hm & HB & Ht).
  assert (El : lid b0 = (5 + 8 * c_layers c)%nat) by (apply (lid_eq c mask ids pos n nb nt bt h lo b0 HB)).
  assert (Eo : out_node b0 = (first (c_layers c) + 4)%nat) by (apply (out_eq c mask ids pos n nb nt bt h lo b0 HB)).
  destruct (gb_post _ _ _ _ _ _ _ _ _ _ _ HB 4%nat _ eq_refl) as [N1 _]. cbn [fst snd] in N1.
  assert (HF : fit [c_vocab c; n; nb] [c_vocab c; nt; bt]) by (destruct HG; repeat split; repeat constructor; assumption).
  pose proof (gen_ce_ok lo (first (c_layers c) + 4) (c_vocab c) [n; nb] [nt; bt] b0 (gb_inv _ _ _ _ _ _ _ _ _ _ _ HB) Ht N1 HF) as H2.
  unfold okp in H2. rewrite <- Eo in H2. destruct (gen_cross_entropy (out_node b0) b0) as [[labels b1]| |] eqn:E2; try contradiction.
  destruct H2 as (HI & HX & Hn & HL & HA & Wl & (Sl & Bl & _) & Hl & Dl & C0 & C1 & C2 & Tf). rewrite El in C0, C1, C2, Tf.
  assert (HB1 := gbuilt_ext _ _ _ _ _ _ _ _ _ _ _ _ HB HI HX Hn HL HA).
  assert (El1 : lid b1 = (5 + 8 * c_layers c)%nat) by (apply (lid_eq c mask ids pos n nb nt bt h lo b1 HB1)).
  (* the optimizer *)
  assert (Ep := bm_params_eq c mask ids pos n nb nt bt h lo b1 HB1).
  set (kid := S (5 + 8 * c_layers c)).
  assert (NK : NoDup (opt_kinds o kid)).
  { destruct o as [lr mom wd damp nest|kd lr b1' b2 wd eps]; cbn [opt_kinds]; [destruct (Rltb 0 mom); repeat constructor; intros []|].
    repeat constructor; cbn [In]; lia. }
  assert (KK : forall k, In k (opt_kinds o kid) -> (kid <= k)%nat).
  { intros k. destruct o as [lr mom wd damp nest|kd lr b1' b2 wd eps]; cbn [opt_kinds]; [destruct (Rltb 0 mom)|]; cbn [In]; lia. }
  pose proof (gen_states_ok lo (opt_kinds o kid) (g_params c) b1 HI) as H3.
  assert (H3' : okp (gen_states (opt_kinds o kid) (g_params c) b1) (fun b' => grown lo b1 b' /\ (forall k p sh ba, In k (opt_kinds o kid) -> In p (g_params c) -> hast b1 (Val p) sh ba -> hast b' (Tmp k p) sh ba))).
  { apply H3; [|exact NK|apply params_nodup|].
    - intros p Hin. destruct (p_hast c mask ids pos n nb nt bt h lo b1 HB1 p Hin) as (sh & ba & T1 & _). eauto.
    - intros k p Hk _. apply Tf. apply KK in Hk. unfold kid in Hk. lia. }
  clear H3. unfold okp in H3'. destruct (gen_states (opt_kinds o kid) (g_params c) b1) as [b| |] eqn:E3; try contradiction.
  destruct H3' as (GR & HT). destruct GR as [GI GX Gn GL GA Gnew Gnext].
  assert (HB2 := gbuilt_ext _ _ _ _ _ _ _ _ _ _ _ _ HB1 GI GX Gn GL GA).
  exists mask, b0, labels, b1, b. split; [reflexivity|]. split; [exact E2|]. split; [unfold opt_new; rewrite El1, Ep; exact E3|]. intros shapes.
  split; [apply (shapes_eq c mask ids pos n nb nt bt h lo b HG HB2)|].
  intros positions data past batches a P0 P m v ph s np state model loss zero it Hit Hst0 Hdat Hps Hinc Hsm Hs.
  assert (El2 : lid b = (5 + 8 * c_layers c)%nat) by (apply (lid_eq c mask ids pos n nb nt bt h lo b HB2)).
  assert (Ep2 := bm_params_eq c mask ids pos n nb nt bt h lo b HB2). rewrite El2, Ep2 in *. fold kid in Hst0 |- *.
  assert (HD : forall x t, b_mem b x = Some t -> disj ids t /\ disj pos t /\ disj mask t /\ disj labels t).
  { intros x t Hx. assert (R := bi_rng _ _ GI x t). repeat split.
    - intros k K1 K2; specialize (R k Hx K2). specialize (Hi k K1). lia.
    - intros k K1 K2; specialize (R k Hx K2). specialize (Hp k K1). lia.
    - intros k K1 K2; specialize (R k Hx K2). specialize (Hm k K1). lia.
    - destruct (b_mem b1 x) as [u|] eqn:Eu; [assert (u = t) by (apply GX in Eu; congruence); subst; apply (Dl x t Eu)|].
      intros k K1 K2. specialize (Gnew x t k Hx Eu K2). specialize (Hl k K1). lia. }
  assert (HD2 : disj ids pos /\ disj ids mask /\ disj ids labels /\ disj labels pos /\ disj labels mask).
  { split; [assumption|]. repeat split; intros k K1 K2.
    - specialize (Hi k K1). specialize (Hm k K2). lia. - specialize (Hi k K1). specialize (Hl k K2). lia.
    - specialize (Hl k K1). specialize (Hp k K2). lia. - specialize (Hl k K1). specialize (Hm k K2). lia. }
  assert (HC : hast b (Tmp (5 + 8 * c_layers c) 0) [] [] /\ hast b (Tmp (5 + 8 * c_layers c) 1) [2; n; nb]%Z [2; nt; bt]%Z /\ hast b (Tmp (5 + 8 * c_layers c) 2) [n; nb] [nt; bt]).
  { repeat split; eapply hast_ext; eauto. }
  assert (HT' : forall p j sh ba, In p (g_params c) -> In j (opt_kinds o kid) -> hast b (Val p) sh ba -> hast b (Tmp j p) sh ba).
  { intros p j sh ba Hin Hj Hv. apply (HT j p sh ba Hj Hin). destruct (p_hast c mask ids pos n nb nt bt h lo b1 HB1 p Hin) as (sh' & ba' & T1 & _).
    assert (T2 := hast_ext _ _ _ _ _ GX T1). destruct T2 as (t & Q1 & <- & <- & _), Hv as (t' & Q2 & <- & <- & _). assert (t' = t) by congruence. subst. exact T1. }
  pose (wf4 := conj Wi (conj Wp (conj Wm Wl))).
  assert (HST : forall p j, In p (g_params c) -> In j (opt_kinds o kid) -> bU b (Tmp j p) /\ t_shape (PyModels.bt b (Tmp j p)) = t_shape (PyModels.bt b (Val p))).
  { intros p j Hin Hj. destruct (p_hast c mask ids pos n nb nt bt h lo b HB2 p Hin) as (sh & ba & T1 & _).
    destruct (hast_U b _ _ _ T1) as (_ & S1 & _), (hast_U b _ _ _ (HT' p j _ _ Hin Hj T1)) as (U2 & S2 & _). split; [exact U2|congruence]. }
  (* what is known at the start and at the end *)
  set (EE := E0 c mask ids pos labels n nb nt bt h lo b HB2 wf4 HD positions data Hdat).
  destruct Hs as [s1 s2 s3 s4 s5 s6 s7].
  assert (Einit : @has EE (Mst c P None (o_known (g_params c) kid o it (penv (g_params c) m, penv (g_params c) v))) s).
  { split.
    - cbn [K EE E0 benv]. unfold bK, cs. repeat apply Forall_cons.
      + exact s2. + exact s3.
      + split; [apply s4|]. rewrite Sp. intros idx Hx. apply inb1_inv in Hx as (i & -> & Hx). apply s4. assumption.
      + split; [apply s5|]. rewrite Sm. intros idx Hx. apply inb2_inv in Hx as (i & t & -> & Hx & Hy). apply s5; assumption.
      + unfold dcs. rewrite Forall_forall. intros k Hk. apply in_flat_map in Hk as (d & Hd & Hk). destruct (s6 d Hd) as (x1 & x2 & x3). destruct (Hdat d Hd) as [(_ & Sx & _) (_ & Sy & _) _ _ _].
        destruct Hk as [<-|[<-|[]]]; (split; [assumption|]); [rewrite Sx|rewrite Sy]; intros idx Hx; apply inb2_inv in Hx as (i & t & -> & Hx & Hy); apply x3; assumption.
    - intros x Ux. destruct (bU_inv b x Ux) as (t & Et & Ebt). cbn [A EE E0 benv]. split; [rewrite Ebt; eapply s1; eassumption|]. intros f Hf.
      destruct x as [q|q|k i]; cbn [Mst] in Hf.
      + destruct (in_dec Nat.eq_dec q (g_params c)) as [Hq|]; [|discriminate]. injection Hf as <-. intros idx Hx. destruct (nth_index _ _ Hq) as [I1 I2]. rewrite params_len in I2.
        specialize (s7 _ idx I2). unfold pval in s7. rewrite (Eb c mask ids pos n nb nt bt h lo b HB2) in s7 by exact I2. rewrite I1 in s7. apply s7. exact Hx.
      + discriminate.
      + destruct (Nat.eq_dec k (5 + 8 * c_layers c)); [destruct (Nat.eq_dec i 0); discriminate|].
        destruct (Z.eq_dec it (opt_first o)) as [Eit|Nit].
        { exfalso. rewrite Eit in Hf. clear - Hf. revert Hf. destruct o as [lr mom wd damp nest|kd lr b1' b2 wd eps]; cbn [o_known opt_first]; intros Hf.
          - unfold sgd_known in Hf. cbn [Z.eqb] in Hf. destruct (Nat.eq_dec k kid); [destruct (in_dec Nat.eq_dec i (g_params c)); [destruct (Rltb 0 mom)|]|]; discriminate.
          - unfold adam_known in Hf. cbn in Hf. discriminate. }
        assert (Hne : past <> []) by (intros ->; apply Nit; unfold it; change (zlen []) with 0%Z; lia). specialize (Hst0 Hne).
        destruct (o_known (g_params c) kid o it (penv (g_params c) m, penv (g_params c) v) k i) as [f0|] eqn:Hf0; [|discriminate]. injection Hf as <-.
        intros idx Hx. exact (state_known o b (g_params c) kid HST m v s it k i f0 idx Hst0 Hf0 Hx). }
  assert (Inv0 : o_inv (g_params c) o it (penv (g_params c) m, penv (g_params c) v)) by (unfold it; eapply (o_inv_iterates o _ _ past); [exact Ho|apply o_inv0|exact Hit]).
  eapply acc_weaken.
  { apply (train_runs c mask ids pos labels n nb nt bt h lo b HG HB2 Heps (conj Si Bi) (conj Sp Bp) (conj Sm Bm) (conj Sl Bl) wf4 HD HD2 Hfl HC
      positions data a Hps Hdat o Ho HT' batches Hinc it P m v None s); [|exact Inv0|exact Einit].
    intros done mbs rest P1 m1 v1 hist Eq Hi'. exact (Hsm done mbs rest P1 m1 v1 (ph ++ hist) Eq (iterates_app _ _ _ _ _ _ _ _ _ _ _ _ _ _ _ _ Hit Hi')). }
  intros s' _ (P' & m' & v' & hist & T1 & T2). exists P', m', v', hist. split; [eapply iterates_app; [exact Hit|exact T1]|]. split.
  - destruct T2 as [HK HH]. cbn [K E0 benv] in HK. unfold bK, cs in HK.
    inversion HK as [|? ? k1 HK1]; subst. inversion HK1 as [|? ? k2 HK2]; subst. inversion HK2 as [|? ? k3 HK3]; subst. inversion HK3 as [|? ? k4 HK4]; subst. clear HK HK1 HK2 HK3.
    split.
    + intros x t Hx. destruct (HH x) as [Hst _]; [cbn; unfold bU; congruence|]. cbn [A E0 benv] in Hst. unfold PyModels.bt in Hst. rewrite Hx in Hst. exact Hst.
    + exact k1. + exact k2.
    + destruct k3 as [k3 k3']. split; [assumption|]. rewrite Sp in k3'. intros i Hx. rewrite k3'; [reflexivity|]. repeat constructor; lia.
    + destruct k4 as [k4 k4']. split; [assumption|]. rewrite Sm in k4'. intros i j Hx Hy. rewrite k4'; [reflexivity|]. repeat constructor; lia.
    + intros d Hd. unfold dcs in HK4. rewrite Forall_forall in HK4. destruct (Hdat d Hd) as [(_ & Sx & _) (_ & Sy & _) _ _ _].
      destruct (HK4 (CInt (sx d) (idx2 (stok d)))) as [x1 x2]; [apply in_flat_map; exists d; split; [assumption|left; reflexivity]|].
      destruct (HK4 (CInt (sy d) (idx2 (slab d)))) as [y1 y2]; [apply in_flat_map; exists d; split; [assumption|right; left; reflexivity]|].
      rewrite Sx in x2. rewrite Sy in y2. split; [assumption|]. split; [assumption|]. intros i t Hx Hy. rewrite x2, y2 by (repeat constructor; lia). split; reflexivity.
    + intros j idx Hj Hx. unfold pval in *. rewrite (Eb c mask ids pos n nb nt bt h lo b HB2) in * by exact Hj.
      assert (Hin : In (nth j (g_params c) O) (g_params c)) by (apply nth_In; rewrite params_len; exact Hj).
      destruct (p_hast c mask ids pos n nb nt bt h lo b HB2 _ Hin) as (sh & ba & Tv & _). destruct (hast_U b _ _ _ Tv) as (Uv & _ & _).
      destruct (HH (Val (nth j (g_params c) O)) Uv) as [_ HV]. cbn [Mst] in HV.
      destruct (in_dec Nat.eq_dec (nth j (g_params c) O) (g_params c)); [|contradiction]. etransitivity; [exact (HV _ eq_refl idx Hx)|].
      unfold fin, penv. rewrite index_nth; [reflexivity|apply params_nodup|rewrite params_len; exact Hj].
  - split.
    { intros Hne. assert (Nit : (it + zlen batches <> opt_first o)%Z).
      { unfold it. intros K0. apply Hne. pose proof (zlen_nonneg past). pose proof (zlen_nonneg batches).
        assert (zlen past = 0%Z /\ zlen batches = 0%Z) as [Z1 Z2] by lia. unfold zlen in Z1, Z2. destruct past; [|discriminate]. destruct batches; [reflexivity|discriminate]. }
      destruct T2 as [_ HH]. apply (known_state o b (g_params c) kid HST m' v' s' (it + zlen batches)); [apply params_nodup|unfold it; pose proof (zlen_nonneg batches); pose proof (zlen_nonneg past); lia|exact Nit|].
      intros k i f idx Hf Uk Hx. destruct (HH (Tmp k i) Uk) as [_ HV]. apply (HV (fin f)); [|exact Hx]. cbn [Mst].
      destruct (Nat.eq_dec k (5 + 8 * c_layers c)) as [->|]; [|unfold kid in Hf; rewrite Hf; reflexivity]. exfalso.
      clear - Hf. subst kid. destruct o as [lr mom wd damp nest|kd lr b1' b2 wd eps]; cbn [o_known] in Hf; [unfold sgd_known in Hf|unfold adam_known in Hf].
      - destruct (Nat.eq_dec (5 + 8 * c_layers c) (S (5 + 8 * c_layers c))); [lia|discriminate].
      - destruct (it + zlen batches =? 1)%Z; [discriminate|]. destruct (in_dec Nat.eq_dec i (g_params c)); [|discriminate]. destruct (Nat.eq_dec (5 + 8 * c_layers c) (S (5 + 8 * c_layers c))); [lia|]. destruct (Nat.eq_dec (5 + 8 * c_layers c) (S (S (5 + 8 * c_layers c)))); [lia|discriminate]. }
    intros Hne. assert (Hh : hist <> []).
    { destruct batches as [|mbs rest]; [congruence|]. cbn [map opt_iterates] in T1. destruct T1 as (? & ? & ? & ? & _ & -> & _). discriminate. }
    destruct HC as [HC0 _]. destruct (hast_U b _ _ _ HC0) as (U0 & S0 & _). destruct T2 as [_ HH]. destruct (HH _ U0) as [_ HV]. cbn [Mst] in HV.
    destruct (Nat.eq_dec (5 + 8 * c_layers c) (5 + 8 * c_layers c)); [|congruence]. cbn [Nat.eq_dec] in HV.
    unfold loss_val. rewrite (lid_eq c mask ids pos n nb nt bt h lo b HB2). destruct hist as [|z hist]; [congruence|]. apply (HV _ eq_refl). cbn [A E0 benv]. rewrite S0. constructor.
Qed.

(** ** C61 *)
(** The model, the loss and the optimizer are constructed in this order.  [batches]: the batches of
    all epochs in order, each a list of minibatches.  After every execution (every order of tasks
    allowed by the declared accesses, in which the accumulations into the value of the loss may
    change places) the parameters are the iterates of the optimizer on the sums of the scaled
    cross-entropies of the minibatches of a batch, started with state zero, and the value of the
    loss is that of the last batch, at the parameters before its step.  For relu all
    preactivations at all iterates must be nonzero. *)
Theorem C61_gpt2_training c ids pos n nb nt bt h next o :
  gdims c n nb nt bt h -> 0 < c_eps c -> (c_flash c = true -> (nt | n)%Z /\ (bt | nb)%Z) -> opt_ok o ->
  wf_tensor ids -> t_shape ids = [n; nb] -> t_base ids = [nt; bt] -> (forall k, In k (tile_handles ids) -> (k < next)%Z) ->
  wf_tensor pos -> t_shape pos = [n] -> t_base pos = [nt] -> (forall k, In k (tile_handles pos) -> (k < next)%Z) -> disj ids pos ->
  exists mask b0 labels b1 b,
    gpt2 c ids pos next = Ok (mask, b0) /\ gen_cross_entropy (out_node b0) b0 = Ok (labels, b1) /\
    opt_new o (S (lid b1)) (bm_params b1) b1 = Ok b /\
    let shapes := param_shapes (c_embed c) (c_head c) h (c_inner c) (c_vocab c) (c_maxpos c) (c_layers c) in
    map (fun m => t_shape (PyModels.bt b (Val m))) (bm_params b) = shapes /\
    forall positions data batches a P s,
      let np := (5 + 16 * c_layers c)%nat in
      let state := fun d => states (c_embed c) (c_head c) h n (c_inner c) (c_eps c) (act_fun (c_act c)) (stok d) positions in
      let model := fun d P => logits (c_embed c) (c_head c) h n (c_inner c) (c_eps c) (act_fun (c_act c)) (stok d) positions P (c_layers c) in
      let loss := fun mbs P => fold_right (fun d z => a * cross_entropy n nb (c_vocab c) (slab d) (model d P) + z) 0 mbs in
      let zero := fun (_ : nat) (_ : list Z) => 0 in
      (forall d, In d data -> data_ok c ids labels n nb nt bt b d) ->
      (forall i, (0 <= i < n)%Z -> (0 <= positions i < c_maxpos c)%Z) ->
      (forall mbs, In mbs batches -> incl mbs data) ->
      (forall done mbs rest P1 m1 v1 hist, batches = done ++ mbs :: rest ->
         opt_iterates o shapes (opt_first o) (map loss done) P zero zero P1 m1 v1 hist -> forall d, In d mbs ->
         c_act c = Relu -> forall k i x t, (k < c_layers c)%nat -> (0 <= i < c_inner c)%Z -> (0 <= x < n)%Z -> (0 <= t < nb)%Z ->
         preactivation (c_embed c) (c_head c) h n (c_eps c) P1 (2 + 16 * k) (state d P1 k) i x t <> 0) ->
      gpt2_ready ids pos mask labels b n nb positions data np P s ->
      runs_any (gpt2_train a o ids labels b (opt_first o) batches) s (fun s' => exists P' m' v' hist,
        opt_iterates o shapes (opt_first o) (map loss batches) P zero zero P' m' v' hist /\
        gpt2_ready ids pos mask labels b n nb positions data np P' s' /\
        (batches <> [] -> elem s' (loss_val b) [] = Fin (last hist 0))).
Proof.
  intros HG Heps Hfl Ho Wi Si Bi Hi Wp Sp Bp Hp Dip.
  destruct (C69_gpt2_resumed_training c ids pos n nb nt bt h next o HG Heps Hfl Ho Wi Si Bi Hi Wp Sp Bp Hp Dip) as (mask & b0 & labels & b1 & b & E1 & E2 & E3 & ES & H).
  exists mask, b0, labels, b1, b. split; [exact E1|]. split; [exact E2|]. split; [exact E3|]. split; [exact ES|].
  intros positions data batches a P s np state model loss zero Hdat Hps Hinc Hsm Hs.
  specialize (H positions data [] batches a P P zero zero [] s). cbv zeta in H. change (zlen []) with 0%Z in H. rewrite Z.add_0_r in H.
  apply acc_any. eapply acc_weaken; [apply H; try assumption; [repeat split|congruence]|]. cbv beta. intros s' _ (P' & m' & v' & hist & T1 & T2 & _ & T4). exists P', m', v', hist. auto.
Qed.
