(** * The hypotheses of C59 can be met *)
From Coq Require Import Reals Lra.
From Verif Require Import Base Spec Geometry Traits TraitsProofs Runtime Ops RealOps TensorSem ElemGeneric Concrete Axis SliceGeo XReals RSum AttnSpec MatOps CrossEntropy XTriples HasRuns TapeMath Tape PyLayers PyLinear AttMath PyModels BuildEnv GptBuild BuildModel GptSpec GptModel PropGpt.
Local Close Scope R_scope.
Local Open Scope list_scope.
Local Open Scope Z_scope.

(** ** A build names finitely many tensors *)
Definition finite (b : build) : Prop := exists l, forall x, b_mem b x <> None -> In x l.
Lemma finite_mem b b' : finite b -> b_mem b' = b_mem b -> finite b'.
Proof. intros [l H] E. exists l. rewrite E. assumption. Qed.
Ltac ob H := unfold bind, throw_if in H; cbv zeta in H;
  repeat (match type of H with
  | (match ?r with Ok _ => _ | _ => _ end) = Ok _ => let E := fresh "E" in destruct r eqn:E; [|discriminate H..]
  | (let (_, _) := ?p in _) = Ok _ => destruct p
  | (if ?c then _ else _) = Ok _ => let E := fresh "E" in destruct c eqn:E; try discriminate H
  end).
Lemma mk_mem sh ba d b t b' : mk_tensor sh ba d b = Ok (t, b') -> b_mem b' = b_mem b.
Proof. unfold mk_tensor. intros H. ob H. injection H as <- <-. reflexivity. Qed.
Lemma alloc_finite x sh ba d b b' : finite b -> alloc x sh ba d b = Ok b' -> finite b'.
Proof.
  intros [l Hl] H. unfold alloc in H. ob H. injection H as <-. exists (x :: l). intros y Hy. cbn [b_mem] in Hy. unfold mem_set in Hy.
  destruct (gvar_dec y x) as [->|]; [left; reflexivity|right; apply Hl]. rewrite <- (mk_mem _ _ _ _ _ _ E). assumption.
Qed.
Lemma moments_finite sh ba d b n b' : finite b -> moments_new sh ba d b = Ok (n, b') -> finite b'.
Proof. intros Hb H. unfold moments_new in H. ob H. injection H as <- <-. eapply finite_mem; [|reflexivity]. exact (alloc_finite _ _ _ _ _ _ (alloc_finite _ _ _ _ _ _ Hb E) E0). Qed.
Lemma tmp_finite i sh ba b b' : finite b -> tmp_moments i sh ba b = Ok b' -> finite b'.
Proof. intros Hb H. unfold tmp_moments in H. ob H. exact (alloc_finite _ _ _ _ _ _ (alloc_finite _ _ _ _ _ _ Hb E) H). Qed.
Lemma if_finite c sh ba b n b' : finite b -> moments_if c sh ba b = Ok (n, b') -> finite b'.
Proof. intros Hb H. unfold moments_if in H. destruct c; [eapply moments_finite; eassumption|]. injection H as <- <-. assumption. Qed.
Ltac fin := repeat match goal with
  | Hb : finite ?b, E : alloc _ _ _ _ ?b = Ok ?b' |- _ => assert (finite b') by (exact (alloc_finite _ _ _ _ _ _ Hb E)); clear E
  | Hb : finite ?b, E : moments_new _ _ _ ?b = Ok (_, ?b') |- _ => assert (finite b') by (exact (moments_finite _ _ _ _ _ _ Hb E)); clear E
  | Hb : finite ?b, E : tmp_moments _ _ _ ?b = Ok ?b' |- _ => assert (finite b') by (exact (tmp_finite _ _ _ _ _ Hb E)); clear E
  | Hb : finite ?b, E : moments_if _ _ _ ?b = Ok (_, ?b') |- _ => assert (finite b') by (exact (if_finite _ _ _ _ _ _ Hb E)); clear E
  end.
Lemma linear_finite x sd tx nd add addb bias b d b' : finite b -> gen_linear x sd tx nd add addb bias b = Ok (d, b') -> finite b'.
Proof.
  intros Hb H. unfold gen_linear in H. ob H.
  destruct bias.
  - ob E1. injection E1 as <- <-. injection H as <- <-. fin. assumption.
  - injection E1 as <- <-. injection H as <- <-. fin. assumption.
Qed.
Lemma act_finite x f b d b' : finite b -> gen_act x f b = Ok (d, b') -> finite b'.
Proof. intros Hb H. unfold gen_act in H. ob H. injection H as <- <-. fin. assumption. Qed.
Lemma add_finite x y b d b' : finite b -> gen_add x y b = Ok (d, b') -> finite b'.
Proof. intros Hb H. unfold gen_add in H. ob H. injection H as <- <-. fin. assumption. Qed.
Lemma add_slice_finite x y a b d b' : finite b -> gen_add_slice x y a b = Ok (d, b') -> finite b'.
Proof. intros Hb H. unfold gen_add_slice in H. ob H. injection H as <- <-. fin. assumption. Qed.
Lemma emb_finite ix a v e yt wt b d b' : finite b -> gen_embedding ix a v e yt wt b = Ok (d, b') -> finite b'.
Proof. intros Hb H. unfold gen_embedding in H. ob H. injection H as <- <-. fin. assumption. Qed.
Lemma norm_finite x a eps b d b' : finite b -> gen_layer_norm x a eps b = Ok (d, b') -> finite b'.
Proof. intros Hb H. unfold gen_layer_norm in H. ob H. injection H as <- <-. fin. assumption. Qed.
Lemma attn_finite f q k v nh ht bias m b d b' : finite b -> gen_attention f q k v nh ht bias m b = Ok (d, b') -> finite b'.
Proof.
  intros Hb H. unfold gen_attention in H. destruct (bshape b q) as [|? [|? [|? [|]]]], (bbase b q) as [|? [|? [|? [|]]]]; try discriminate H.
  ob H. injection H as <- <-. fin. assumption.
Qed.
Lemma push_finite (r : res (ldesc * build)) b' : (forall d b, r = Ok (d, b) -> finite b) -> push r = Ok b' -> finite b'.
Proof. intros Hr H. unfold push in H. ob H. injection H as <-. eapply finite_mem; [eapply Hr; reflexivity|reflexivity]. Qed.
Lemma ce_finite o b t b' : finite b -> gen_cross_entropy o b = Ok (t, b') -> finite b'.
Proof.
  intros Hb H. unfold gen_cross_entropy in H. ob H. injection H as <- <-. apply mk_mem in E. assert (finite b0) by (eapply finite_mem; eassumption). fin. assumption.
Qed.
Lemma mlp_finite c x b b' : finite b -> gpt2_mlp c x b = Ok b' -> finite b'.
Proof.
  intros Hb H. unfold gpt2_mlp in H. ob H.
  eapply push_finite; [|exact H]. intros d b1. apply linear_finite. eapply push_finite; [|exact E0]. intros d' b2. apply act_finite. eapply push_finite; [|exact E]. intros d'' b3. apply linear_finite.
  eapply finite_mem; [exact Hb|reflexivity].
Qed.
Lemma block_finite c mask b b' : finite b -> gpt2_block c mask b = Ok b' -> finite b'.
Proof.
  intros Hb H. unfold gpt2_block in H. ob H.
  assert (F1 : finite a) by (eapply push_finite; [|exact E]; intros d b1; apply norm_finite; assumption).
  assert (F2 : finite a0) by (eapply push_finite; [|exact E0]; intros d b1; apply attn_finite; assumption).
  assert (F3 : finite a1) by (eapply push_finite; [|exact E1]; intros d b1; apply add_finite; assumption).
  assert (F4 : finite a2) by (eapply push_finite; [|exact E2]; intros d b1; apply norm_finite; assumption).
  assert (F5 : finite a3) by (eapply mlp_finite; eassumption).
  eapply push_finite; [|exact H]. intros d b1. apply add_finite. eapply finite_mem; [exact F5|reflexivity].
Qed.
Lemma repeat_finite n f b b' : (forall b b', finite b -> f b = Ok b' -> finite b') -> finite b -> repeat_build n f b = Ok b' -> finite b'.
Proof.
  intros Hf. revert b. induction n as [|n IH]; intros b Hb H; cbn [repeat_build] in H; [injection H as <-; assumption|]. ob H. eapply IH; [|exact H]. eapply Hf; eassumption.
Qed.
Lemma gpt2_finite c ids pos next mask b : gpt2 c ids pos next = Ok (mask, b) -> finite b.
Proof.
  intros H. unfold gpt2 in H. ob H. injection H as <- <-. apply mk_mem in E. cbn [b_mem] in E.
  assert (F0 : finite b0) by (exists []; intros x Hx; rewrite E in Hx; contradiction).
  assert (F1 : finite a) by (eapply push_finite; [|eassumption]; intros d b1; apply emb_finite; assumption).
  assert (F2 : finite a0) by (eapply push_finite; [|eassumption]; intros d b1; apply emb_finite; assumption).
  assert (F3 : finite a1) by (eapply push_finite; [|eassumption]; intros d b1; apply add_slice_finite; assumption).
  assert (F4 : finite a2) by (eapply (repeat_finite _ _ a1); [|eassumption|eassumption]; intros b1 b2; apply block_finite).
  assert (F5 : finite a3) by (eapply push_finite; [|eassumption]; intros d b1; apply norm_finite; assumption).
  eapply push_finite; [|eassumption]; intros d b1; apply linear_finite; assumption.
Qed.

(** ** A store with given contents *)
Section Fill.
Variables (b : build) (lo : Z) (f : gvar -> list Z -> R).
Hypothesis HI : binv lo b.
Lemma fill_ok (s0 : store XR) l : exists s, (forall h, h < lo -> s h = s0 h) /\ (forall h, (forall x t, b_mem b x = Some t -> ~ In h (tile_handles t)) -> s h = s0 h) /\
  forall x t, In x l -> b_mem b x = Some t -> stored KF s t /\ forall idx, inb (t_shape t) idx -> elem s t idx = Fin (f x idx).
Proof.
  induction l as [|y l (s & H1 & H2 & H3)]; [exists s0; split; [auto|split; [auto|intros x t []]]|]. destruct (b_mem b y) as [u|] eqn:Ey.
  - assert (Wu := bi_wf _ _ HI _ _ Ey). exists (put u (fin (f y)) s). split; [|split].
    + intros h Hh. unfold put. rewrite put_other; [apply H1; assumption|]. intros C. pose proof (bi_rng _ _ HI _ _ _ Ey C). lia.
    + intros h Hh. unfold put. rewrite put_other; [apply H2; assumption|]. exact (Hh y u Ey).
    + intros x t Hx Ex. destruct (gvar_dec x y) as [->|N].
      * rewrite Ey in Ex. injection Ex as <-. split; [apply put_stored, wf_wft; assumption|]. intros idx Hi. rewrite put_elem; [reflexivity|apply wf_wft; assumption|assumption].
      * destruct Hx as [Hx|Hx]; [congruence|]. assert (Wt := bi_wf _ _ HI _ _ Ex). assert (D : disj t u) by (eapply (bi_disj _ _ HI); eassumption).
        destruct (H3 x t Hx Ex) as [J1 J2]. split; [apply put_stored_other; [apply wf_wft; assumption|assumption|assumption]|].
        intros idx Hi. unfold put. rewrite put_elem_other; [apply J2; assumption|apply wf_wft; assumption|assumption|assumption].
  - exists s. split; [assumption|]. split; [assumption|]. intros x t Hx Ex. apply H3; [|assumption]. destruct Hx as [->|]; [congruence|assumption].
Qed.
End Fill.
Lemma stored_ext k (s s' : store XR) t : wf_tensor t -> (forall h, In h (tile_handles t) -> s' h = s h) -> stored k s t -> stored k s' t.
Proof. intros W H Hs i Hi. rewrite H; [apply Hs; assumption|]. apply th_In; [apply wf_wft|]; assumption. Qed.
Lemma ielem_ext (s s' : store XR) t idx : wf_tensor t -> inb (t_shape t) idx -> (forall h, In h (tile_handles t) -> s' h = s h) -> ielem s' t idx = ielem s t idx.
Proof. intros W Hi H. unfold ielem. rewrite H; [reflexivity|]. apply th_In; [apply wf_wft; assumption|apply etile_bound; [apply wf_wft; assumption|assumption]]. Qed.
Lemma belem_ext (s s' : store XR) t idx : wf_tensor t -> inb (t_shape t) idx -> (forall h, In h (tile_handles t) -> s' h = s h) -> belem s' t idx = belem s t idx.
Proof. intros W Hi H. unfold belem. rewrite H; [reflexivity|]. apply th_In; [apply wf_wft; assumption|apply etile_bound; [apply wf_wft; assumption|assumption]]. Qed.

(** For every model C59 speaks about and all contents there is a state in which the step starts. *)
Theorem C59_state_exists c ids pos n nb nt bt h next mask b0 labels b :
  gdims c n nb nt bt h ->
  wf_tensor ids -> t_shape ids = [n; nb] -> t_base ids = [nt; bt] -> (forall k, In k (tile_handles ids) -> k < next) ->
  wf_tensor pos -> t_shape pos = [n] -> t_base pos = [nt] -> (forall k, In k (tile_handles pos) -> k < next) -> disj ids pos ->
  gpt2 c ids pos next = Ok (mask, b0) -> gen_cross_entropy (out_node b0) b0 = Ok (labels, b) ->
  forall tokens positions lab P G L0, exists s, gpt2_state ids pos mask labels b n nb tokens positions lab (5 + 16 * c_layers c) P G L0 s.
Proof.
  intros HG Wi Si Bi Hi Wp Sp Bp Hp Dip E1 E2 tokens positions lab P G L0.
  pose proof (gpt2_ok c ids pos n nb nt bt h next HG Si Bi Sp Bp) as H1. rewrite E1 in H1. cbn [okp] in H1.
  destruct H1 as (lo & Hlo & Wm & (Sm & Bm & _) & Hm & HB & Ht).
  assert (El : lid b0 = (5 + 8 * c_layers c)%nat) by (apply (lid_eq c mask ids pos n nb nt bt h lo b0 HB)).
  assert (Eo : out_node b0 = (first (c_layers c) + 4)%nat) by (apply (out_eq c mask ids pos n nb nt bt h lo b0 HB)).
  destruct (gb_post _ _ _ _ _ _ _ _ _ _ _ HB 4%nat _ eq_refl) as [N1 _]. cbn [fst snd] in N1.
  assert (HF : fit [c_vocab c; n; nb] [c_vocab c; nt; bt]) by (destruct HG; repeat split; repeat constructor; assumption).
  pose proof (gen_ce_ok lo (first (c_layers c) + 4) (c_vocab c) [n; nb] [nt; bt] b0 (gb_inv _ _ _ _ _ _ _ _ _ _ _ HB) Ht N1 HF) as H2.
  rewrite <- Eo, E2 in H2. cbn [okp] in H2. destruct H2 as (HI & HX & Hn & HL & HA & Wl & (Sl & Bl & _) & Hl & Dl & C0 & C1 & C2 & _).
  assert (HB' := gbuilt_ext _ _ _ _ _ _ _ _ _ _ _ _ HB HI HX Hn HL HA).
  assert (Fb : finite b) by (eapply ce_finite; [eapply gpt2_finite; exact E1|exact E2]). destruct Fb as [names Hnames].
  assert (PL := GptRun.params_len c). assert (PD := params_nodup c). assert (EP := bm_params_eq c mask ids pos n nb nt bt h lo b HB').
  set (f := fun x : gvar => match x with Val m => P (GptRun.index m (g_params c)) | Grad m => G (GptRun.index m (g_params c)) | Tmp _ _ => fun _ => L0 end).
  set (sa := (puti ids (idx2 tokens) (puti pos (idx1 positions) (putb mask causal (puti labels (idx2 lab) (fun _ => BF [])))) : store XR)).
  destruct (fill_ok b lo f HI sa names) as (s & F1 & F2 & F3). exists s.
  assert (Kl : forall k, In k (tile_handles labels) -> s k = sa k).
  { intros k Hk. apply F2. intros x t Hx Hc. exact (Dl x t Hx k Hk Hc). }
  assert (Dm : disj ids mask) by (intros k K1 K2; specialize (Hi k K1); specialize (Hm k K2); lia).
  assert (Dl1 : disj ids labels) by (intros k K1 K2; specialize (Hi k K1); specialize (Hl k K2); lia).
  assert (Dm2 : disj pos mask) by (intros k K1 K2; specialize (Hp k K1); specialize (Hm k K2); lia).
  assert (Dl2 : disj pos labels) by (intros k K1 K2; specialize (Hp k K1); specialize (Hl k K2); lia).
  assert (Dl3 : disj mask labels) by (intros k K1 K2; specialize (Hm k K1); specialize (Hl k K2); lia).
  assert (NI : forall (t u : tensor) k, disj t u -> In k (tile_handles t) -> ~ In k (tile_handles u)) by (intros t u k D K1 K2; exact (D k K1 K2)).
  assert (NI' : forall (t u : tensor) k, disj u t -> In k (tile_handles t) -> ~ In k (tile_handles u)) by (intros t u k D K1 K2; exact (D k K2 K1)).
  set (s3 := (puti labels (idx2 lab) (fun _ => BF []) : store XR)) in *. set (s2 := putb mask causal s3) in *. set (s1 := puti pos (idx1 positions) s2) in *.
  assert (Vi : forall k, In k (tile_handles ids) -> s k = sa k) by (intros k Hk; apply F1; specialize (Hi k Hk); lia).
  assert (Vp : forall k, In k (tile_handles pos) -> s k = s1 k).
  { intros k Hk. rewrite F1 by (specialize (Hp k Hk); lia). unfold sa, puti. apply put_other. exact (NI' _ _ _ Dip Hk). }
  assert (Vm : forall k, In k (tile_handles mask) -> s k = s2 k).
  { intros k Hk. rewrite F1 by (specialize (Hm k Hk); lia). unfold sa, puti. rewrite put_other by (exact (NI' _ _ _ Dm Hk)). unfold s1, puti. apply put_other. exact (NI' _ _ _ Dm2 Hk). }
  assert (Vl : forall k, In k (tile_handles labels) -> s k = s3 k).
  { intros k Hk. rewrite Kl by assumption. unfold sa, puti. rewrite put_other by (exact (NI' _ _ _ Dl1 Hk)). unfold s1, puti. rewrite put_other by (exact (NI' _ _ _ Dl2 Hk)).
    unfold s2, putb. apply put_other. exact (NI' _ _ _ Dl3 Hk). }
  assert (I2 : forall i t u v, 0 <= i < u -> 0 <= t < v -> inb [u; v] [i; t]) by (intros; repeat apply Forall2_cons; try assumption; apply Forall2_nil).
  assert (F4 : forall x t, b_mem b x = Some t -> stored KF s t /\ forall idx, inb (t_shape t) idx -> elem s t idx = Fin (f x idx)).
  { intros x t Hx. apply F3; [apply Hnames; congruence|assumption]. }
  assert (F5 : forall x sh ba, hast b x sh ba -> forall idx, inb (t_shape (PyModels.bt b x)) idx -> elem s (PyModels.bt b x) idx = Fin (f x idx)).
  { intros x sh ba (t & Et & _) idx Hidx. unfold PyModels.bt in *. rewrite Et in *. apply (F4 x t Et). assumption. }
  assert (HN : forall j, (j < 5 + 16 * c_layers c)%nat -> exists tr, hasn b (nth j (bm_params b) O) tr).
  { intros j Hj. rewrite EP. assert (Hin : In (nth j (g_params c) O) (g_params c)) by (apply nth_In; rewrite PL; assumption). revert Hin. generalize (nth j (g_params c) O) as m. intros m Hin.
    unfold g_params in Hin. rewrite !in_app_iff, in_flat_map in Hin. destruct Hin as [Hin|[(k & Hk & Hin)|Hin]].
    - cbn [In] in Hin. assert (exists tr, nth_error (pre_nodes c n nb nt bt) m = Some tr) as [tr Etr] by (destruct Hin as [<-|[<-|[]]]; eexists; reflexivity).
      exists tr. eapply (gb_pre _ _ _ _ _ _ _ _ _ _ _ HB'); eassumption.
    - apply in_seq in Hk. apply params_range in Hin. assert (exists tr, nth_error (block_nodes c n nb nt bt h) (m - first k) = Some tr) as [tr Etr].
      { destruct (nth_error (block_nodes c n nb nt bt h) (m - first k)) eqn:En; [eauto|]. apply nth_error_None in En. cbn [List.length block_nodes app attn_nodes] in En. unfold first in *. lia. }
      exists tr. replace m with (first k + (m - first k))%nat by lia. eapply (gb_blk _ _ _ _ _ _ _ _ _ _ _ HB'); [lia|exact Etr].
    - cbn [In] in Hin. assert (exists i, (i < 5)%nat /\ m = (first (c_layers c) + i)%nat) as (i & Hi5 & ->) by (destruct Hin as [<-|[<-|[<-|[]]]]; eexists; (split; [|reflexivity]); lia).
      destruct (nth_error (post_nodes c n nb nt bt) i) as [tr|] eqn:En; [|apply nth_error_None in En; cbn in En; lia]. exists tr. eapply (gb_post _ _ _ _ _ _ _ _ _ _ _ HB'); exact En. }
  split.
  - intros x t Hx. apply (F4 x t Hx).
  - split; [eapply stored_ext; [exact Wi|exact Vi|apply puti_stored, wf_wft; exact Wi]|]. intros i t Hi0 Ht0. assert (Ix : inb (t_shape ids) [i; t]) by (rewrite Si; apply I2; assumption).
    rewrite (ielem_ext sa s) by assumption. unfold sa. rewrite puti_ielem by (assumption || apply wf_wft; assumption). reflexivity.
  - split; [eapply stored_ext; [exact Wp|exact Vp|apply puti_stored, wf_wft; exact Wp]|]. intros i Hi0. assert (Ix : inb (t_shape pos) [i]) by (rewrite Sp; repeat apply Forall2_cons; try assumption; apply Forall2_nil).
    rewrite (ielem_ext s1 s) by assumption. unfold s1. rewrite puti_ielem by (assumption || apply wf_wft; assumption). reflexivity.
  - split; [eapply stored_ext; [exact Wm|exact Vm|apply putb_stored, wf_wft; exact Wm]|]. intros i t Hi0 Ht0. assert (Ix : inb (t_shape mask) [i; t]) by (rewrite Sm; apply I2; assumption).
    rewrite (belem_ext s2 s) by assumption. unfold s2. rewrite putb_belem by (assumption || apply wf_wft; assumption). reflexivity.
  - split; [eapply stored_ext; [exact Wl|exact Vl|apply puti_stored, wf_wft; exact Wl]|]. intros i t Hi0 Ht0. assert (Ix : inb (t_shape labels) [i; t]) by (rewrite Sl; apply I2; assumption).
    rewrite (ielem_ext s3 s) by assumption. unfold s3. rewrite puti_ielem by (assumption || apply wf_wft; assumption). reflexivity.
  - intros j idx Hj Hidx. destruct (HN j Hj) as (tr & T1 & _). unfold pval in *. rewrite (F5 _ _ _ T1 idx Hidx). cbn [f]. rewrite EP, GptRun.index_nth by (assumption || rewrite PL; assumption). reflexivity.
  - intros j idx Hj Hidx. destruct (HN j Hj) as (tr & _ & T1). unfold pgrad in *. rewrite (F5 _ _ _ T1 idx Hidx). cbn [f]. rewrite EP, GptRun.index_nth by (assumption || rewrite PL; assumption). reflexivity.
  - unfold loss_val. assert (Eb : lid b = lid b0) by (unfold lid; rewrite HL; reflexivity). rewrite Eb. destruct (hast_U b _ _ _ C0) as (_ & S0 & _).
    rewrite (F5 _ _ _ C0) by (rewrite S0; constructor). reflexivity.
Qed.

(** A model of two blocks, with ragged tiles, and its inputs. *)
Definition small : gpt2_config := {| c_vocab := 7; c_vocab_tile := 2; c_embed := 6; c_embed_tile := 4; c_maxpos := 5; c_inner := 5; c_inner_tile := 3;
  c_eps := 1; c_layers := 2; c_head := 2; c_head_tile := 1; c_act := Gelu; c_flash := true |}.
Definition small_ids : tensor := std_tensor [4; 2] [2; 1] 0.
Definition small_pos : tensor := std_tensor [4] [2] 4.
Lemma small_gdims : gdims small 4 2 2 1 3.
Proof. split; cbn; try lia; try (exists 2; reflexivity); intros _; exists 2; reflexivity. Qed.
Lemma small_C59 : exists mask b0 labels b, gpt2 small small_ids small_pos 6 = Ok (mask, b0) /\ gen_cross_entropy (out_node b0) b0 = Ok (labels, b) /\
  List.length (bm_params b) = 37%nat /\
  forall tokens positions lab P G L0, exists s, gpt2_state small_ids small_pos mask labels b 4 2 tokens positions lab 37 P G L0 s.
Proof.
  assert (W1 : wf_tensor small_ids) by (apply std_wf; [reflexivity|repeat constructor; lia|repeat constructor; lia]).
  assert (W2 : wf_tensor small_pos) by (apply std_wf; [reflexivity|repeat constructor; lia|repeat constructor; lia]).
  assert (H1 : forall k, In k (tile_handles small_ids) -> 0 <= k < 4) by (intros k Hk; apply std_handles in Hk; vm_compute in Hk |- *; intuition congruence).
  assert (H2 : forall k, In k (tile_handles small_pos) -> 4 <= k < 6) by (intros k Hk; apply std_handles in Hk; vm_compute in Hk |- *; intuition congruence).
  destruct (C59_gpt2_training_step small small_ids small_pos 4 2 2 1 3 6 small_gdims Rlt_0_1 (fun _ => conj (ex_intro (fun z => 4 = z * 2) 2 eq_refl) (ex_intro (fun z => 2 = z * 1) 2 eq_refl))
    W1 eq_refl eq_refl ltac:(intros k Hk; specialize (H1 k Hk); lia) W2 eq_refl eq_refl ltac:(intros k Hk; specialize (H2 k Hk); lia)) as (mask & b0 & labels & b & E1 & E2 & _ & _ & _ & _ & E3 & _).
  exists mask, b0, labels, b. split; [exact E1|]. split; [exact E2|]. split.
  - apply (f_equal (@List.length _)) in E3. rewrite map_length in E3. rewrite E3. reflexivity.
  - apply (C59_state_exists small small_ids small_pos 4 2 2 1 3 6 mask b0 labels b small_gdims W1 eq_refl eq_refl); try assumption; try reflexivity.
    + intros k Hk. specialize (H1 k Hk). lia.
    + intros k Hk. specialize (H2 k Hk). lia.
    + intros k K1 K2. specialize (H1 k K1). specialize (H2 k K2). lia.
Qed.
