(** * The hypotheses of C70 and C71 can be met *)
From Coq Require Import String Reals Lra.
From Verif Require Import Base Spec Geometry Traits TraitsProofs Runtime Ops RealOps TensorSem ElemGeneric Concrete Axis SliceGeo Sequence XReals NdRuns AnyRuns RSum AttnSpec MatOps CrossEntropy XTriples HasRuns TapeMath Tape PyLayers PyLinear PySimple AttMath PyModels BuildEnv GptBuild BuildModel GptSpec GptModel PropGpt GptExamples NumpyIO PropNumpy Checkpoint PropCheckpoint GptTorchSpec TorchMath GptTorch PropTorch PropTorchBack PropTorchGpt.
Import ListNotations.
Local Close Scope string_scope.
Local Close Scope R_scope.
Local Open Scope list_scope.
Local Open Scope Z_scope.

(** ** A state with room for the arrays, next to any other *)
Definition slot_k (B : Z) (j : nat) : Z := B + 3 * Z.of_nat j.
Definition ex_mem (B : Z) (j : nat) : handle := slot_k B j.
Definition ex_q (B : Z) (j : nat) : slot := {| sl_mem := slot_k B j; sl_next := slot_k B j + 1; sl_scr := slot_k B j + 2 |}.
Definition add_arrays (B : Z) (l : list (narr R)) (s : store XR) : store XR := fun k =>
  if k <? B then s k else
  let a := nth (Z.to_nat ((k - B) / 3)) l nothing in
  if (k - B) mod 3 =? 2 then BI (ztab (2 * zlen (n_shape a)) (fun _ => 0))
  else BF (ztab (prodZ (n_shape a)) (fun o => Fin (n_at a (unoff (n_shape a) o)))).
Lemma add_old B l s k : k < B -> add_arrays B l s k = s k.
Proof. intros H. unfold add_arrays. rewrite (proj2 (Z.ltb_lt _ _) H). reflexivity. Qed.
Lemma add_new B l s j i : 0 <= i < 3 -> add_arrays B l s (slot_k B j + i) =
  let a := nth j l nothing in if i =? 2 then BI (ztab (2 * zlen (n_shape a)) (fun _ => 0)) else BF (ztab (prodZ (n_shape a)) (fun o => Fin (n_at a (unoff (n_shape a) o)))).
Proof.
  intros Hi. unfold add_arrays, slot_k. destruct (Z.ltb_spec (B + 3 * Z.of_nat j + i) B); [lia|].
  replace (B + 3 * Z.of_nat j + i - B) with (i + Z.of_nat j * 3) by ring.
  rewrite Z.mod_add, Z.mod_small, Z.div_add, Z.div_small by lia. rewrite Z.add_0_l, Nat2Z.id. reflexivity.
Qed.
Lemma add_holds B l s : holds_arrays (add_arrays B l s) (ex_mem B) l.
Proof.
  intros j a idx Ha Hi. unfold acell, ex_mem. cbn [a_mem a_shape]. rewrite <- (Z.add_0_r (slot_k B j)), add_new by lia. cbn [Z.eqb].
  rewrite (nth_error_nth _ _ _ Ha). cbn [fl]. rewrite zn_ztab by (apply off_bound; exact Hi). rewrite unoff_off by exact Hi. reflexivity.
Qed.
Lemma bounded (l : list Z) : exists B, forall k, In k l -> k < B.
Proof.
  induction l as [|x l [B HB]]; [exists 0; intros k []|]. exists (Z.max (x + 1) B). intros k [<-|Hk]; [lia|]. specialize (HB k Hk). lia.
Qed.
Lemma add_room B l s ts : map n_shape l = map t_shape ts -> (forall t, In t ts -> wf_tensor t /\ stored KF s t /\ forall k, In k (tile_handles t) -> k < B) ->
  (forall i j t u, i <> j -> nth_error ts i = Some t -> nth_error ts j = Some u -> disj t u) ->
  room (add_arrays B l s) (ex_mem B) (ex_q B) ts.
Proof.
  intros ES HT HD. split.
  - intros j t Ht. destruct (HT t (nth_error_In _ _ Ht)) as (W & St & Hk).
    assert (En : n_shape (nth j l nothing) = t_shape t).
    { apply (map_nth_error t_shape) in Ht. rewrite <- ES in Ht. destruct (nth_error l j) as [a|] eqn:Ea.
      - rewrite (nth_error_nth _ _ _ Ea). rewrite (map_nth_error n_shape _ _ Ea) in Ht. congruence.
      - exfalso. apply nth_error_None in Ea. assert (nth_error (map n_shape l) j <> None) by congruence. apply nth_error_Some in H. rewrite map_length in H. lia. }
    assert (Hp : 0 <= prodZ (t_shape t)).
    { assert (pos (t_shape t)) as Hp by (apply wf_wft in W; apply W). clear -Hp. induction Hp as [|x sh Hx Hs IH]; cbn [prodZ]; [lia|]. nia. }
    split; [exact W|]. split.
    { eapply stored_ext; [exact W| |exact St]. intros k Hk'. apply add_old. apply Hk, Hk'. }
    unfold ex_mem, ex_q. cbn [sl_next sl_scr]. rewrite <- (Z.add_0_r (slot_k B j)) at 1. rewrite !add_new by lia. cbn [Z.eqb Pos.eqb]. rewrite En. cbn [ty].
    rewrite !zlen_ztab by (assumption || (unfold zlen; lia)). auto.
  - intros i j t Hi Ht. destruct (HT t (nth_error_In _ _ Ht)) as (_ & _ & Hk). unfold ex_mem, ex_q, slot_k. cbn [sl_next]. split; intros C; specialize (Hk _ C); lia.
  - intros i j Hi Hj. unfold ex_mem, ex_q, slot_k. cbn [sl_next]. lia.
  - exact HD.
Qed.

(** For every model C70 speaks about and all contents there is a state in which from_torch starts. *)
Theorem C70_state_exists c ids pos n nb nt bt h next mask b0 labels b :
  gdims c n nb nt bt h ->
  wf_tensor ids -> t_shape ids = [n; nb] -> t_base ids = [nt; bt] -> (forall k, In k (tile_handles ids) -> k < next) ->
  wf_tensor pos -> t_shape pos = [n] -> t_base pos = [nt] -> (forall k, In k (tile_handles pos) -> k < next) -> disj ids pos ->
  gpt2 c ids pos next = Ok (mask, b0) -> gen_cross_entropy (out_node b0) b0 = Ok (labels, b) ->
  forall tokens positions lab G L0 l, map n_shape l = map t_shape (params_of b) -> exists mem q s,
    room s mem q (params_of b) /\ holds_arrays s mem l /\
    (forall j t, (j < 5 + 16 * c_layers c)%nat -> In t [ids; pos; mask; labels] \/ (exists x, b_mem b x = Some t) -> ~ In (sl_next (q j)) (tile_handles t)) /\
    gpt2_unloaded ids pos mask labels b n nb tokens positions lab (5 + 16 * c_layers c) G L0 s.
Proof.
  intros HG Wi Si Bi Hi Wp Sp Bp Hp Dip E1 E2 tokens positions lab G L0 l ES.
  destruct (C59_state_exists c ids pos n nb nt bt h next mask b0 labels b HG Wi Si Bi Hi Wp Sp Bp Hp Dip E1 E2 tokens positions lab (fun _ _ => 0%R) G L0) as (s & Hs).
  pose proof (gpt2_ok c ids pos n nb nt bt h next HG Si Bi Sp Bp) as H1. rewrite E1 in H1. cbn [okp] in H1.
  destruct H1 as (lo & Hlo & Wm & (Sm & Bm & _) & Hm & HB & Ht).
  assert (El : lid b0 = (5 + 8 * c_layers c)%nat) by (apply (lid_eq c mask ids pos n nb nt bt h lo b0 HB)).
  assert (Eo : out_node b0 = (first (c_layers c) + 4)%nat) by (apply (out_eq c mask ids pos n nb nt bt h lo b0 HB)).
  destruct (gb_post _ _ _ _ _ _ _ _ _ _ _ HB 4%nat _ eq_refl) as [N1 _]. cbn [fst snd] in N1.
  assert (HF : fit [c_vocab c; n; nb] [c_vocab c; nt; bt]) by (destruct HG; repeat split; repeat constructor; assumption).
  pose proof (gen_ce_ok lo (first (c_layers c) + 4) (c_vocab c) [n; nb] [nt; bt] b0 (gb_inv _ _ _ _ _ _ _ _ _ _ _ HB) Ht N1 HF) as H2.
  rewrite <- Eo, E2 in H2. cbn [okp] in H2. destruct H2 as (HI & HX & Hn & HL & HA & Wl & (Sl & Bl & _) & Hl & Dl & C0 & C1 & C2 & _). rewrite El in C0.
  assert (HB' := gbuilt_ext _ _ _ _ _ _ _ _ _ _ _ _ HB HI HX Hn HL HA).
  destruct (bounded (tile_handles ids ++ tile_handles pos ++ tile_handles mask ++ tile_handles labels)) as (B1 & HB1).
  set (B := Z.max B1 (b_next b)).
  assert (K4 : forall t, In t [ids; pos; mask; labels] -> forall k, In k (tile_handles t) -> k < B).
  { intros t Ht' k Hk. specialize (HB1 k). rewrite !in_app_iff in HB1. cbn [In] in Ht'. destruct Ht' as [<-|[<-|[<-|[<-|[]]]]]; unfold B; specialize (HB1 ltac:(tauto)); lia. }
  assert (KM : forall x t, b_mem b x = Some t -> forall k, In k (tile_handles t) -> k < B).
  { intros x t Hx k Hk. pose proof (bi_rng _ _ HI x t k Hx Hk). unfold B. lia. }
  assert (PL : List.length (bm_params b) = (5 + 16 * c_layers c)%nat) by (rewrite (bm_params_eq c mask ids pos n nb nt bt h lo b HB'); apply GptRun.params_len).
  assert (PM : forall j t, nth_error (params_of b) j = Some t -> b_mem b (Val (nth j (bm_params b) O)) = Some t /\ (j < 5 + 16 * c_layers c)%nat).
  { intros j t Hj. assert (Hlt : (j < List.length (params_of b))%nat) by (apply nth_error_Some; congruence). unfold params_of in Hlt. rewrite map_length, PL in Hlt. split; [|exact Hlt].
    destruct (param_nodes c mask ids pos n nb nt bt h lo b HB' j Hlt) as (tr & (x & X1 & _) & _). rewrite X1. rewrite <- Hj. unfold params_of. symmetry.
    erewrite (map_nth_error (fun m => PyModels.bt b (Val m))); [|apply nth_error_nth'; lia]. unfold PyModels.bt. rewrite X1. reflexivity. }
  assert (OLD : forall t, In t [ids; pos; mask; labels] \/ (exists x, b_mem b x = Some t) -> forall k, In k (tile_handles t) -> add_arrays B l s k = s k).
  { intros t Ht' k Hk. apply add_old. destruct Ht' as [H|[x Hx]]; [exact (K4 t H k Hk)|exact (KM x t Hx k Hk)]. }
  exists (ex_mem B), (ex_q B), (add_arrays B l s). split; [|split; [|split]].
  - apply add_room; [exact ES| |].
    + intros t Ht'. apply In_nth_error in Ht' as (j & Hj). destruct (PM j t Hj) as [Hm' _]. split; [exact (bi_wf _ _ HI _ _ Hm')|]. split; [exact (gs_alloc _ _ _ _ _ _ _ _ _ _ _ _ _ _ _ Hs _ _ Hm')|exact (KM _ _ Hm')].
    + intros i j t u Hij H3 H4. destruct (PM i t H3) as [M3 L3], (PM j u H4) as [M4 L4]. eapply (bi_disj _ _ HI); [exact M3|exact M4|]. intros C. injection C as C. apply Hij.
      rewrite (bm_params_eq c mask ids pos n nb nt bt h lo b HB') in C.
      apply (proj1 (NoDup_nth (g_params c) 0%nat) (params_nodup c) i j); [rewrite GptRun.params_len; lia|rewrite GptRun.params_len; lia|exact C].
  - apply add_holds.
  - intros j t Hj Ht' C. unfold ex_q in C. cbn [sl_next] in C. assert (slot_k B j + 1 < B) by (destruct Ht' as [H|[x Hx]]; [exact (K4 t H _ C)|exact (KM x t Hx _ C)]). unfold slot_k in *. lia.
  - destruct Hs as [u1 [u2 u2'] [u3 u3'] [u4 u4'] [u5 u5'] _ u6 u7]. split.
    + intros x t Hx. eapply stored_ext; [exact (bi_wf _ _ HI _ _ Hx)|apply OLD; right; eauto|exact (u1 x t Hx)].
    + assert (O := OLD ids ltac:(left; cbn [In]; tauto)). split; [eapply stored_ext; [exact Wi|exact O|exact u2]|]. intros i t H3 H4. rewrite <- (u2' i t H3 H4). apply ielem_ext; [exact Wi|rewrite Si; repeat constructor; lia|exact O].
    + assert (O := OLD pos ltac:(left; cbn [In]; tauto)). split; [eapply stored_ext; [exact Wp|exact O|exact u3]|]. intros i H3. rewrite <- (u3' i H3). apply ielem_ext; [exact Wp|rewrite Sp; repeat constructor; lia|exact O].
    + assert (O := OLD mask ltac:(left; cbn [In]; tauto)). split; [eapply stored_ext; [exact Wm|exact O|exact u4]|]. intros i t H3 H4. rewrite <- (u4' i t H3 H4). apply belem_ext; [exact Wm|rewrite Sm; repeat constructor; lia|exact O].
    + assert (O := OLD labels ltac:(left; cbn [In]; tauto)). split; [eapply stored_ext; [exact Wl|exact O|exact u5]|]. intros i t H3 H4. rewrite <- (u5' i t H3 H4). apply ielem_ext; [exact Wl|rewrite Sl; repeat constructor; lia|exact O].
    + intros j idx Hj Hx. rewrite <- (u6 j idx Hj Hx). destruct (param_nodes c mask ids pos n nb nt bt h lo b HB' j Hj) as (tr & _ & (y & Y1 & _)).
      assert (Ey : pgrad b j = y) by (unfold pgrad, PyModels.bt; rewrite Y1; reflexivity). rewrite Ey in *. apply elem_ext; [exact (bi_wf _ _ HI _ _ Y1)|exact Hx|apply OLD; right; eauto].
    + rewrite <- u7. destruct (hast_U b _ _ _ C0) as (U0 & S0 & B0). destruct (bU_inv b _ U0) as (t & Et & Eb).
      assert (Elv : loss_val b = PyModels.bt b (Tmp (5 + 8 * c_layers c) 0)) by (unfold loss_val; rewrite (lid_eq c mask ids pos n nb nt bt h lo b HB'); reflexivity).
      rewrite Elv. rewrite Eb in *. apply elem_ext; [exact (bi_wf _ _ HI _ _ Et)|rewrite S0; constructor|apply OLD; right; eauto].
Qed.

(** ** The conversion of a model of one block, 4 features in 2 heads of 2; every torch element is a
    number that says which it is *)
Definition tag (j : nat) (idx : list Z) : Z := 1000 * Z.of_nat j + match idx with [i] => i | [i; k] => 100 * i + k | _ => 999 end.
Definition tagged : list (named Z) := named_parameters 4 3 5 6 (fun _ => "0"%string) tag 1.
Theorem C70_example : exists l, torch_arrays 4 2 tagged = Ok l /\ map n_shape l = param_shapes 4 2 2 3 5 6 1 /\
  (* keys, head 1, feature 0 from input 3: c_attn.weight[3, 4 + 2] *)
  n_at (nth 5 l (mkN [] (fun _ => 0))) [1; 0; 3] = 4306 /\
  (* bias of values, feature 1 of head 0: c_attn.bias[8 + 1] *)
  n_at (nth 9 l (mkN [] (fun _ => 0))) [1; 0] = 5009 /\
  (* output 2 of the attention from feature 1 of head 1: attn.c_proj.weight[3, 2] *)
  n_at (nth 10 l (mkN [] (fun _ => 0))) [2; 1; 1] = 6302.
Proof. eexists. split; [reflexivity|]. repeat split; reflexivity. Qed.
(** and back into a torch model full of zeros *)
Theorem C71_example : exists l ps, torch_arrays 4 2 tagged = Ok l /\ to_torch 4 (named_parameters 4 3 5 6 (fun _ => "0"%string) (fun _ _ => 0) 1) l = Ok ps /\
  map (fun p => (fst p, n_shape (snd p))) ps = map (fun p => (fst p, n_shape (snd p))) tagged /\
  n_at (snd (nth 4 ps ([], mkN [] (fun _ => 0)))) [3; 6] = 4306 /\ n_at (snd (nth 5 ps ([], mkN [] (fun _ => 0)))) [9] = 5009 /\
  n_at (snd (nth 6 ps ([], mkN [] (fun _ => 0)))) [3; 2] = 6302 /\ n_at (snd (nth 16 ps ([], mkN [] (fun _ => 0)))) [4; 1] = 16401.
Proof. eexists. eexists. split; [reflexivity|]. split; [reflexivity|]. repeat split; reflexivity. Qed.
(** 4 features cannot be 3 heads *)
Theorem C70_example_mismatch : exists m, torch_arrays 4 3 tagged = Throw m.
Proof. eexists. reflexivity. Qed.
