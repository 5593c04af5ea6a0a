(** * What the constructor of GPT2Model makes *)
From Coq Require Import Reals Lra.
From Verif Require Import Base Spec Geometry Traits TraitsProofs Runtime Ops RealOps TensorSem ElemGeneric Concrete Axis SliceGeo XReals MatOps XTriples HasRuns PyLayers PyModels BuildEnv.
Local Close Scope R_scope.
Local Open Scope list_scope.
Local Open Scope Z_scope.

Notation dims := (list Z * list Z)%type.

(** ** Several layers in a row, from [b0] on *)
Section Row.
Variables (lo : Z) (b0 : build).
Record row (A : list nat) (trs : list dims) (ds : list ldesc) (acs : list nat) (ts : list (nat * nat * dims)) (b : build) : Prop := {
  rw_inv : binv lo b;
  rw_ext : ext b0 b;
  rw_n : b_n b = (b_n b0 + List.length trs)%nat;
  rw_layers : b_layers b = b_layers b0 ++ ds;
  rw_acts : b_acts b = A ++ acs;
  rw_free : tfree (lid b) b;
  rw_nodes : forall i tr, nth_error trs i = Some tr -> hasn b (b_n b0 + i) tr;
  rw_tmps : forall j i tr, In (j, i, tr) ts -> hast b (Tmp (lid b0 + j) i) (fst tr) (snd tr)
}.
Lemma row_start A acs : binv lo b0 -> tfree (lid b0) b0 -> b_acts b0 = A ++ acs -> row A [] [] acs [] b0.
Proof.
  intros H1 H2 H3. split; auto.
  - apply ext_refl. - cbn; lia. - rewrite app_nil_r; reflexivity. - intros [|i] tr Hi; discriminate. - intros ? ? ? [].
Qed.
Lemma row_push A trs ds acs ts b r D trs' us : row A trs ds acs ts b ->
  okp r (fun '(d, b') => d = D /\ made lo b trs' (lid b) b' /\ (forall i tr, In (i, tr) us -> hast b' (Tmp (lid b) i) (fst tr) (snd tr))) ->
  okp (push r) (row A (trs ++ trs') (ds ++ [D]) (acs ++ [ld_out D]) (ts ++ map (fun u => (List.length ds, fst u, snd u)) us)).
Proof.
  intros HR Hr. unfold push. eapply okp_bind; [exact Hr|]. intros [d b'] (-> & M & T). cbn [okp].
  assert (Ll : lid b = (lid b0 + List.length ds)%nat) by (unfold lid; rewrite (rw_layers _ _ _ _ _ _ HR), app_length; reflexivity).
  assert (Mn := ma_n _ _ _ _ _ M). assert (Rn := rw_n _ _ _ _ _ _ HR).
  split; cbn [b_mem b_next b_n b_layers b_acts].
  - destruct (ma_inv _ _ _ _ _ M). split; assumption.
  - intros x t Hx. apply (ma_ext _ _ _ _ _ M). apply (rw_ext _ _ _ _ _ _ HR). assumption.
  - rewrite app_length. cbn [b_n]. lia.
  - rewrite (ma_layers _ _ _ _ _ M), (rw_layers _ _ _ _ _ _ HR), app_assoc. reflexivity.
  - rewrite (ma_acts _ _ _ _ _ M), (rw_acts _ _ _ _ _ _ HR), app_assoc. reflexivity.
  - intros k i Hk. cbn [b_mem]. unfold lid in Hk. cbn [b_layers] in Hk. rewrite app_length in Hk. cbn in Hk.
    assert (El : List.length (b_layers b') = lid b) by (unfold lid; rewrite (ma_layers _ _ _ _ _ M); reflexivity).
    rewrite (ma_tmp _ _ _ _ _ M) by lia. apply (rw_free _ _ _ _ _ _ HR). lia.
  - intros i tr Hi. destruct (Nat.lt_ge_cases i (List.length trs)) as [Hl|Hl].
    + rewrite nth_error_app1 in Hi by assumption. eapply (hasn_ext b'); [intros x t Hx; exact Hx|]. eapply hasn_ext; [exact (ma_ext _ _ _ _ _ M)|]. apply (rw_nodes _ _ _ _ _ _ HR). assumption.
    + rewrite nth_error_app2 in Hi by assumption. pose proof (ma_nodes _ _ _ _ _ M _ _ Hi) as Hn. rewrite Rn in Hn.
      replace (b_n b0 + List.length trs + (i - List.length trs))%nat with (b_n b0 + i)%nat in Hn by lia. exact Hn.
  - intros j i tr Hi. apply in_app_or in Hi as [Hi|Hi].
    + apply (rw_tmps _ _ _ _ _ _ HR) in Hi. destruct Hi as (t & Ht & Ht'). exists t. split; [apply (ma_ext _ _ _ _ _ M); assumption|assumption].
    + apply in_map_iff in Hi as ([i' tr'] & Hi & Hin). inversion Hi; subst. rewrite <- Ll. apply T in Hin. exact Hin.
Qed.
End Row.
Lemma act_row b A acs k : b_acts b = A ++ acs -> (k <= List.length acs)%nat -> (0 < k)%nat -> act b k = nth (List.length acs - k) acs O.
Proof.
  intros H Hk Hk0. unfold act. rewrite H, app_length, app_nth2 by lia. f_equal. lia.
Qed.

(** ** The layers of GPT2 *)
Section Gpt.
Variables (c : gpt2_config) (mask : tensor) (n nb nt bt h : Z).
Notation e := (c_embed c). Notation et := (c_embed_tile c). Notation I := (c_inner c). Notation It := (c_inner_tile c).
Definition hid : dims := ([e; n; nb], [et; nt; bt]).
Definition inn : dims := ([I; n; nb], [It; nt; bt]).
Definition block_nodes : list dims :=
  [hid; ([e], [et]); ([e], [et])] ++ attn_nodes (h * c_head c) n nb (c_head c) h et nt bt (c_head_tile c) ++ [hid] ++ [hid; ([e], [et]); ([e], [et])] ++
  [([I; e], [It; et]); ([I], [It]); inn] ++ [inn] ++ [([e; I], [et; It]); ([e], [et]); hid] ++ [hid].
(** [N]: number of the first object of the block; the input is object [N - 1] *)
Definition block_layers (N : nat) : list ldesc :=
  [LNorm (N - 1) N (N + 1) (N + 2) 0 (sqrt (c_eps c));
   LAttn (c_flash c) N N N (N + 11) (N + 3) (N + 5) (N + 7) (N + 9) (Some (N + 4, N + 6, N + 8, N + 10)%nat) (Some mask);
   LAdd (N - 1) (N + 11) (N + 12);
   LNorm (N + 12) (N + 13) (N + 14) (N + 15) 0 (sqrt (c_eps c));
   LLinear SideR NoTrans (N + 13) (N + 18) (N + 16) 1 (Some (N + 17)%nat);
   LAct (c_act c) (N + 18) (N + 19);
   LLinear SideR NoTrans (N + 19) (N + 22) (N + 20) 1 (Some (N + 21)%nat);
   LAdd (N + 12) (N + 22) (N + 23)].
Definition block_acts (N : nat) : list nat := [N; N + 11; N + 12; N + 13; N + 18; N + 19; N + 22; N + 23]%nat.
Definition norm_tmps : list (nat * dims) := [(0%nat, hid); (1%nat, hid); (2%nat, ([n; nb], [nt; bt])); (3%nat, ([n; nb], [nt; bt]))].
Definition block_tmps : list (nat * nat * dims) :=
  map (fun u => (0%nat, fst u, snd u)) norm_tmps ++ map (fun u => (1%nat, fst u, snd u)) (attn_tmps n nb (c_head c) h nt bt (c_head_tile c)) ++
  map (fun u => (3%nat, fst u, snd u)) norm_tmps.
(** the objects before the first block, and the layers *)
Definition pre_nodes : list dims := [([e; c_vocab c], [c_vocab_tile c; c_vocab c]); hid; ([e; c_maxpos c], [c_vocab_tile c; c_maxpos c]); ([e; n], [et; nt]); hid].
Definition pre_layers (ids pos : tensor) : list ldesc := [LEmb ids 1 0 0; LEmb pos 3 2 0; LAddSlice 1 3 4 2].
(** after the last block *)
Definition post_nodes : list dims := [hid; ([e], [et]); ([e], [et]); ([c_vocab c; e], [c_vocab c; et]); ([c_vocab c; n; nb], [c_vocab c; nt; bt])].
Definition post_layers (N : nat) : list ldesc := [LNorm (N - 1) N (N + 1) (N + 2) 0 (sqrt (c_eps c)); LLinear SideR NoTrans N (N + 4) (N + 3) 1 None].
Definition first (k : nat) : nat := (5 + 24 * k)%nat.

(** conditions under which the constructor does not raise *)
Record gdims : Prop := {
  g_vocab : 0 < c_vocab c; g_vt : 0 < c_vocab_tile c; g_et : 0 < et; g_pos : 0 < c_maxpos c; g_I : 0 < I; g_It : 0 < It;
  g_nh : 0 < c_head c; g_ht : 0 < c_head_tile c; g_h : 0 < h; g_e : e = h * c_head c;
  g_n : 0 < n; g_nb : 0 < nb; g_nt : 0 < nt; g_bt : 0 < bt;
  g_div : (c_vocab_tile c | et); g_fl : c_flash c = true -> (c_head_tile c | c_head c)
}.
Hypothesis G : gdims.
Lemma fit_hid : fit [e; n; nb] [et; nt; bt].
Proof. destruct G. split; [reflexivity|]. split; repeat constructor; try assumption. nia. Qed.
Lemma fit_inn : fit [I; n; nb] [It; nt; bt].
Proof. destruct G. split; [reflexivity|]. split; repeat constructor; assumption. Qed.
Lemma fit1 a b : 0 < a -> 0 < b -> fit [a] [b].
Proof. intros. split; [reflexivity|]. split; repeat constructor; assumption. Qed.
Lemma fit2 a b a' b' : 0 < a -> 0 < b -> 0 < a' -> 0 < b' -> fit [a; a'] [b; b'].
Proof. intros. split; [reflexivity|]. split; repeat constructor; assumption. Qed.
Lemma e_pos : 0 < e.
Proof. destruct G. nia. Qed.

Ltac nodeof HR i := let H := fresh "Hn" in pose proof (rw_nodes _ _ _ _ _ _ _ _ HR i _ eq_refl) as H; destruct H as [H _]; unfold hid, inn in H; cbn [fst snd] in H.

Lemma block_ok lo b A : binv lo b -> tfree (lid b) b -> (0 < b_n b)%nat -> b_acts b = A ++ [b_n b - 1]%nat -> hasn b (b_n b - 1) hid ->
  okp (gpt2_block c mask b) (row lo b A block_nodes (block_layers (b_n b)) ((b_n b - 1)%nat :: block_acts (b_n b)) block_tmps).
Proof.
  intros Hb Ht HN Ha [Hp _]. unfold hid in Hp. cbn [fst snd] in Hp. unfold gpt2_block. set (N := b_n b) in *.
  assert (R0 := row_start lo b A _ Hb Ht Ha).
  assert (Ee := e_pos). destruct G as [v1 v2 v3 v4 v5 v6 v7 v8 v9 v10 v11 v12 v13 v14 v15 v16].
  assert (A0 : act b 1 = (N - 1)%nat) by (rewrite (act_row b A [N - 1]%nat 1 Ha) by (cbn; lia); reflexivity).
  rewrite A0.
  (* layer norm *)
  eapply okp_bind.
  { eapply (row_push lo b A [] [] _ [] b _ (LNorm (N - 1) N (N + 1) (N + 2) 0 (sqrt (c_eps c))) [hid; ([e], [et]); ([e], [et])] norm_tmps R0).
    eapply okp_weaken; [apply (gen_layer_norm_ok lo (N - 1) (c_eps c) e [n; nb] et [nt; bt]); [assumption|assumption|exact Hp|apply fit_hid]|].
    intros [d b'] (-> & M & T0 & T1 & T2 & T3). split; [reflexivity|]. split; [exact M|]. intros i tr Hi. unfold norm_tmps in Hi.
    destruct Hi as [Hi|[Hi|[Hi|[Hi|[]]]]]; inversion Hi; subst; assumption. }
  intros b1 R1. cbn [app List.length ld_out] in R1.
  assert (A1 : act b1 1 = N) by (rewrite (act_row b1 A _ 1 (rw_acts _ _ _ _ _ _ _ _ R1)) by (cbn; lia); reflexivity). rewrite A1.
  assert (N1 := rw_n _ _ _ _ _ _ _ _ R1). cbn [List.length] in N1. fold N in N1.
  (* attention *)
  eapply okp_bind.
  { eapply (row_push lo b A _ _ _ _ b1 _ (LAttn (c_flash c) N N N (N + 11) (N + 3) (N + 5) (N + 7) (N + 9) (Some (N + 4, N + 6, N + 8, N + 10)%nat) (Some mask))
      (attn_nodes (h * c_head c) n nb (c_head c) h et nt bt (c_head_tile c)) (attn_tmps n nb (c_head c) h nt bt (c_head_tile c)) R1).
    nodeof R1 0%nat. fold N in Hn. rewrite Nat.add_0_r in Hn. rewrite v10 in Hn.
    eapply okp_weaken; [apply (gen_attention_ok lo (c_flash c) N mask n nb (c_head c) h et nt bt (c_head_tile c) b1); try assumption; [apply (rw_inv _ _ _ _ _ _ _ _ R1)|apply (rw_free _ _ _ _ _ _ _ _ R1)]|].
    intros [d b'] (-> & M & T). split; [rewrite N1, <- !Nat.add_assoc; reflexivity|]. split; [exact M|exact T]. }
  intros b2 R2. cbn [app List.length ld_out] in R2.
  assert (N2 := rw_n _ _ _ _ _ _ _ _ R2). cbn [List.length app attn_nodes] in N2. fold N in N2.
  assert (A2 : act b2 1 = (N + 11)%nat) by (rewrite (act_row b2 A _ 1 (rw_acts _ _ _ _ _ _ _ _ R2)) by (cbn; lia); reflexivity).
  assert (A2' : act b2 3 = (N - 1)%nat) by (rewrite (act_row b2 A _ 3 (rw_acts _ _ _ _ _ _ _ _ R2)) by (cbn; lia); reflexivity). rewrite A2, A2'.
  (* add *)
  eapply okp_bind.
  { eapply (row_push lo b A _ _ _ _ b2 _ (LAdd (N - 1) (N + 11) (N + 12)) [hid] [] R2).
    nodeof R2 11%nat. fold N in Hn. rewrite <- v10 in Hn.
    eapply okp_weaken; [apply (gen_add_ok lo (lid b2) (N - 1) (N + 11) [e; n; nb] [et; nt; bt] b2); [apply (rw_inv _ _ _ _ _ _ _ _ R2)|exact Hn|apply fit_hid]|].
    intros [d b'] (-> & M & T). split; [rewrite N2; reflexivity|]. split; [exact M|intros ? ? []]. }
  intros b3 R3. cbn [app List.length ld_out] in R3.
  assert (N3 := rw_n _ _ _ _ _ _ _ _ R3). cbn [List.length app attn_nodes] in N3. fold N in N3.
  assert (A3 : act b3 1 = (N + 12)%nat) by (rewrite (act_row b3 A _ 1 (rw_acts _ _ _ _ _ _ _ _ R3)) by (cbn; lia); reflexivity). rewrite A3.
  (* layer norm *)
  eapply okp_bind.
  { eapply (row_push lo b A _ _ _ _ b3 _ (LNorm (N + 12) (N + 13) (N + 14) (N + 15) 0 (sqrt (c_eps c))) [hid; ([e], [et]); ([e], [et])] norm_tmps R3).
    nodeof R3 12%nat. fold N in Hn.
    eapply okp_weaken; [apply (gen_layer_norm_ok lo (N + 12) (c_eps c) e [n; nb] et [nt; bt] b3); [apply (rw_inv _ _ _ _ _ _ _ _ R3)|apply (rw_free _ _ _ _ _ _ _ _ R3)|exact Hn|apply fit_hid]|].
    intros [d b'] (-> & M & T0 & T1 & T2 & T3). split; [rewrite N3, <- !Nat.add_assoc; reflexivity|]. split; [exact M|]. intros i tr Hi. unfold norm_tmps in Hi.
    destruct Hi as [Hi|[Hi|[Hi|[Hi|[]]]]]; inversion Hi; subst; assumption. }
  intros b4 R4. cbn [app List.length ld_out] in R4.
  assert (N4 := rw_n _ _ _ _ _ _ _ _ R4). cbn [List.length app attn_nodes] in N4. fold N in N4.
  assert (A4 : act b4 1 = (N + 13)%nat) by (rewrite (act_row b4 A _ 1 (rw_acts _ _ _ _ _ _ _ _ R4)) by (cbn; lia); reflexivity). rewrite A4.
  nodeof R4 13%nat. fold N in Hn.
  (* the MLP *)
  assert (HM : okp (gpt2_mlp c (N + 13) b4) (fun m => made lo b4 ([([I; e], [It; et]); ([I], [It]); inn] ++ [inn] ++ [([e; I], [et; It]); ([e], [et]); hid]) (lid b4)
      (mkB (b_mem m) (b_next m) (b_n m) (b_layers b4) (b_acts b4)) /\ (forall k i, b_mem m (Tmp k i) = b_mem b4 (Tmp k i)) /\
      b_layers m = [LLinear SideR NoTrans (N + 13) (N + 18) (N + 16) 1 (Some (N + 17)%nat); LAct (c_act c) (N + 18) (N + 19); LLinear SideR NoTrans (N + 19) (N + 22) (N + 20) 1 (Some (N + 21)%nat)] /\
      b_acts m = [N + 13; N + 18; N + 19; N + 22]%nat)).
  { unfold gpt2_mlp. set (m0 := mkB (b_mem b4) (b_next b4) (b_n b4) [] [(N + 13)%nat]).
    assert (I0 : binv lo m0) by (destruct (rw_inv _ _ _ _ _ _ _ _ R4); split; assumption).
    eapply okp_bind.
    { unfold push. eapply okp_bind; [apply (gen_linear_ok lo (lid b4) (N + 13) SideR [n; nb] [nt; bt] [e] [et] [I] [It] true m0 I0); [exact Hn|apply fit2; assumption|apply fit1; assumption|apply fit1; assumption|reflexivity|reflexivity]|].
      intros [d m1] (-> & M1 & T1). cbn [okp]. 
      instantiate (1 := fun m1 => exists m1', made lo m0 [([I; e], [It; et]); ([I], [It]); inn] (lid b4) m1' /\ (forall k i, b_mem m1' (Tmp k i) = b_mem b4 (Tmp k i)) /\
        m1 = mkB (b_mem m1') (b_next m1') (b_n m1') [LLinear SideR NoTrans (N + 13) (N + 18) (N + 16) 1 (Some (N + 17)%nat)] [N + 13; N + 18]%nat). cbv beta.
      exists m1. split; [exact M1|]. split; [exact T1|]. rewrite (ma_layers _ _ _ _ _ M1), (ma_acts _ _ _ _ _ M1). unfold m0. cbn [b_layers b_acts b_n app ld_out]. rewrite N4, <- !Nat.add_assoc. reflexivity. }
    intros m1 (m1' & M1 & T1 & ->). set (m1 := mkB _ _ _ _ _). change (act m1 1) with (N + 18)%nat.
    assert (N1' := ma_n _ _ _ _ _ M1). unfold m0 in N1'. cbn [b_n List.length] in N1'. rewrite N4 in N1'.
    assert (I1 : binv lo m1) by (destruct (ma_inv _ _ _ _ _ M1); split; assumption).
    pose proof (ma_nodes _ _ _ _ _ M1 2%nat _ eq_refl) as [Hi _]. unfold m0 in Hi. cbn [b_n fst snd inn] in Hi. rewrite N4, <- Nat.add_assoc in Hi.
    eapply okp_bind.
    { unfold push. eapply okp_bind; [apply (gen_act_ok lo (lid b4) (N + 18) (c_act c) [I; n; nb] [It; nt; bt] m1 I1); [exact Hi|apply fit_inn]|].
      intros [d m2] (-> & M2 & T2). cbn [okp].
      instantiate (1 := fun m2 => exists m2', made lo m1 [inn] (lid b4) m2' /\ (forall k i, b_mem m2' (Tmp k i) = b_mem b4 (Tmp k i)) /\
        m2 = mkB (b_mem m2') (b_next m2') (b_n m2') [LLinear SideR NoTrans (N + 13) (N + 18) (N + 16) 1 (Some (N + 17)%nat); LAct (c_act c) (N + 18) (N + 19)] [N + 13; N + 18; N + 19]%nat). cbv beta.
      exists m2. split; [exact M2|]. split; [intros; rewrite T2; apply T1|]. rewrite (ma_layers _ _ _ _ _ M2), (ma_acts _ _ _ _ _ M2). unfold m1. cbn [b_layers b_acts b_n app ld_out]. rewrite N1', <- !Nat.add_assoc. reflexivity. }
    intros m2 (m2' & M2 & T2 & ->). set (m2 := mkB _ _ _ _ _). change (act m2 1) with (N + 19)%nat.
    assert (N2' := ma_n _ _ _ _ _ M2). unfold m1 in N2'. cbn [b_n List.length] in N2'. rewrite N1' in N2'.
    assert (I2 : binv lo m2) by (destruct (ma_inv _ _ _ _ _ M2); split; assumption).
    pose proof (ma_nodes _ _ _ _ _ M2 0%nat _ eq_refl) as [Hi2 _]. unfold m1 in Hi2. cbn [b_n fst snd inn] in Hi2. rewrite N1', <- !Nat.add_assoc in Hi2.
    unfold push. eapply okp_bind; [apply (gen_linear_ok lo (lid b4) (N + 19) SideR [n; nb] [nt; bt] [I] [It] [e] [et] true m2 I2); [exact Hi2|apply fit2; assumption|apply fit1; assumption|apply fit1; assumption|reflexivity|reflexivity]|].
    intros [d m3] (-> & M3 & T3). cbn [okp b_mem b_next b_n b_layers b_acts].
    split; [|split; [|split]].
    - assert (J1 : made lo b4 [([I; e], [It; et]); ([I], [It]); inn] (lid b4) (mkB (b_mem m1') (b_next m1') (b_n m1') (b_layers b4) (b_acts b4))).
      { destruct M1 as [[]]. split; cbn [b_mem b_next b_n b_layers b_acts]; auto. split; auto. }
      assert (J2 : made lo (mkB (b_mem m1') (b_next m1') (b_n m1') (b_layers b4) (b_acts b4)) [inn] (lid b4) (mkB (b_mem m2') (b_next m2') (b_n m2') (b_layers b4) (b_acts b4))).
      { destruct M2 as [[]]. split; cbn [b_mem b_next b_n b_layers b_acts]; auto. split; auto. }
      assert (J3 : made lo (mkB (b_mem m2') (b_next m2') (b_n m2') (b_layers b4) (b_acts b4)) [([e; I], [et; It]); ([e], [et]); hid] (lid b4) (mkB (b_mem m3) (b_next m3) (b_n m3) (b_layers b4) (b_acts b4))).
      { destruct M3 as [[]]. split; cbn [b_mem b_next b_n b_layers b_acts]; auto. split; auto. }
      eapply made_trans; [exact J1|]. eapply made_trans; [exact J2|exact J3].
    - intros k i. rewrite T3. apply T2.
    - rewrite (ma_layers _ _ _ _ _ M3). unfold m2. cbn [b_layers b_n app]. rewrite N2', <- !Nat.add_assoc. reflexivity.
    - rewrite (ma_acts _ _ _ _ _ M3). unfold m2. cbn [b_acts b_n app ld_out]. rewrite N2', <- !Nat.add_assoc. reflexivity. }
  eapply okp_bind; [exact HM|]. clear HM. intros m (Mm & Tm & Lm & Am). cbv zeta. rewrite Lm, Am. cbn [tl].
  set (b5 := mkB (b_mem m) (b_next m) (b_n m) _ _).
  assert (R5 : row lo b A ([hid; ([e], [et]); ([e], [et])] ++ attn_nodes (h * c_head c) n nb (c_head c) h et nt bt (c_head_tile c) ++ [hid] ++ [hid; ([e], [et]); ([e], [et])] ++
     [([I; e], [It; et]); ([I], [It]); inn] ++ [inn] ++ [([e; I], [et; It]); ([e], [et]); hid]) (firstn 7 (block_layers N)) ((N - 1)%nat :: firstn 7 (block_acts N)) block_tmps b5).
  { destruct R4 as [r1 r2 r3 r4 r5 r6 r7 r8]. split; unfold b5; cbn [b_mem b_next b_n b_layers b_acts].
    - destruct (ma_inv _ _ _ _ _ Mm). split; assumption.
    - intros x t Hx. apply (ma_ext _ _ _ _ _ Mm). apply r2. assumption.
    - pose proof (ma_n _ _ _ _ _ Mm) as Q. cbn [b_n] in Q. rewrite Q, r3. cbn [List.length app attn_nodes]. lia.
    - rewrite r4, <- app_assoc. reflexivity.
    - rewrite r5, <- app_assoc. reflexivity.
    - intros k i Hk. unfold lid in Hk. cbn [b_layers b_mem] in *. rewrite app_length in Hk. rewrite Tm. apply r6. unfold lid. lia.
    - intros i tr Hi. cbn [app attn_nodes] in Hi. destruct (Nat.lt_ge_cases i 16) as [Hl|Hl].
      + eapply (hasn_ext b4); [exact (ma_ext _ _ _ _ _ Mm)|]. apply r7. rewrite <- Hi. symmetry. do 16 (destruct i as [|i]; [reflexivity|]). lia.
      + replace (b_n b + i)%nat with (b_n b4 + (i - 16))%nat by (unfold N in *; lia). apply (ma_nodes _ _ _ _ _ Mm). rewrite <- Hi. cbn [app].
        do 16 (destruct i as [|i]; [lia|]). replace (S (S (S (S (S (S (S (S (S (S (S (S (S (S (S (S i))))))))))))))) - 16)%nat with i by lia. reflexivity.
    - intros j i tr Hi. eapply (hast_ext b4); [exact (ma_ext _ _ _ _ _ Mm)|]. apply r8. unfold block_tmps in Hi. rewrite <- app_assoc in Hi || idtac. cbn [app]. rewrite ?app_nil_r. 
      repeat rewrite in_app_iff in *. tauto. }
  assert (N5 := rw_n _ _ _ _ _ _ _ _ R5). cbn [List.length app attn_nodes] in N5. fold N in N5.
  change (act b5 1) with (act b5 1).
  assert (A5 : act b5 1 = (N + 22)%nat) by (rewrite (act_row b5 A _ 1 (rw_acts _ _ _ _ _ _ _ _ R5)) by (cbn; lia); reflexivity).
  assert (A5' : act b5 5 = (N + 12)%nat) by (rewrite (act_row b5 A _ 5 (rw_acts _ _ _ _ _ _ _ _ R5)) by (cbn; lia); reflexivity). rewrite A5, A5'.
  nodeof R5 22%nat. fold N in Hn0.
  eapply okp_weaken.
  { eapply (row_push lo b A _ _ _ _ b5 _ (LAdd (N + 12) (N + 22) (N + 23)) [hid] [] R5).
    eapply okp_weaken; [apply (gen_add_ok lo (lid b5) (N + 12) (N + 22) [e; n; nb] [et; nt; bt] b5); [apply (rw_inv _ _ _ _ _ _ _ _ R5)|exact Hn0|apply fit_hid]|].
    intros [d b'] (-> & M & T). split; [rewrite N5; reflexivity|]. split; [exact M|intros ? ? []]. }
  intros b6 R6. cbn [map app] in R6. rewrite app_nil_r in R6. exact R6.
Qed.

(** ** The whole constructor *)
Definition blocks (k : nat) : list ldesc := flat_map (fun i => block_layers (first i)) (seq 0 k).
Definition blocks_acts (k : nat) : list nat := flat_map (fun i => block_acts (first i)) (seq 0 k).
Lemma seq_last {X} (f : nat -> list X) k : flat_map f (seq 0 (S k)) = flat_map f (seq 0 k) ++ f k.
Proof. rewrite seq_S, flat_map_app. cbn [flat_map Nat.add]. rewrite app_nil_r. reflexivity. Qed.
Lemma blocks_len k : List.length (blocks k) = (8 * k)%nat.
Proof. induction k as [|k IH]; [reflexivity|]. unfold blocks in *. rewrite seq_last, app_length, IH. cbn [List.length block_layers]. lia. Qed.
Lemma blocks_acts_last k A : exists B, A ++ [4%nat] ++ blocks_acts k = B ++ [first k - 1]%nat.
Proof.
  destruct k as [|k]; [exists A; reflexivity|]. unfold blocks_acts. rewrite seq_last. unfold block_acts at 2.
  exists (A ++ [4%nat] ++ flat_map (fun i => block_acts (first i)) (seq 0 k) ++ [first k; first k + 11; first k + 12; first k + 13; first k + 18; first k + 19; first k + 22]%nat).
  rewrite <- !app_assoc. cbn [app]. do 3 f_equal. cbn [app]. do 7 f_equal. f_equal. unfold first. lia.
Qed.
Record gmade (ids pos : tensor) (lo : Z) (k : nat) (b : build) : Prop := {
  gm_inv : binv lo b;
  gm_n : b_n b = first k;
  gm_layers : b_layers b = pre_layers ids pos ++ blocks k;
  gm_acts : b_acts b = [1; 3; 4]%nat ++ blocks_acts k;
  gm_free : tfree (lid b) b;
  gm_pre : forall i tr, nth_error pre_nodes i = Some tr -> hasn b i tr;
  gm_blk : forall j i tr, (j < k)%nat -> nth_error block_nodes i = Some tr -> hasn b (first j + i) tr;
  gm_tmp : forall j l i tr, (j < k)%nat -> In (l, i, tr) block_tmps -> hast b (Tmp (3 + 8 * j + l) i) (fst tr) (snd tr)
}.
Lemma gm_lid ids pos lo k b : gmade ids pos lo k b -> lid b = (3 + 8 * k)%nat.
Proof. intros [_ _ H _ _ _ _ _]. unfold lid. rewrite H, app_length, blocks_len. reflexivity. Qed.
Lemma gm_last ids pos lo k b : gmade ids pos lo k b -> hasn b (first k - 1) hid.
Proof.
  intros [_ _ _ _ _ H1 H2 _]. destruct k as [|k]; [apply (H1 4%nat); reflexivity|].
  replace (first (S k) - 1)%nat with (first k + 23)%nat by (unfold first; lia). apply (H2 k 23%nat); [lia|]. reflexivity.
Qed.
Lemma gm_step ids pos lo k b : gmade ids pos lo k b -> okp (gpt2_block c mask b) (gmade ids pos lo (S k)).
Proof.
  intros Hg. assert (Hl := gm_lid _ _ _ _ _ Hg). assert (Hh := gm_last _ _ _ _ _ Hg). destruct Hg as [g1 g2 g3 g4 g5 g6 g7 g8].
  destruct (blocks_acts_last k [1; 3]%nat) as (B & HB).
  eapply okp_weaken; [apply (block_ok lo b B); try assumption|].
  - rewrite g2. unfold first. lia. - rewrite g4, g2, <- HB. reflexivity. - rewrite g2. assumption.
  - intros b' [r1 r2 r3 r4 r5 r6 r7 r8]. rewrite g2 in *. split; auto.
    + rewrite r3. cbn. unfold first. lia.
    + rewrite r4, g3. unfold blocks. rewrite seq_last, app_assoc. reflexivity.
    + rewrite r5. unfold blocks_acts. rewrite seq_last. change (B ++ (first k - 1)%nat :: block_acts (first k)) with (B ++ ([first k - 1]%nat ++ block_acts (first k))).
      rewrite !app_assoc, <- HB. reflexivity.
    + intros i tr Hi. eapply hasn_ext; [exact r2|]. auto.
    + intros j i tr Hj Hi. destruct (Nat.eq_dec j k) as [->|]; [auto|]. eapply hasn_ext; [exact r2|]. apply g7; [lia|assumption].
    + intros j l i tr Hj Hi. destruct (Nat.eq_dec j k) as [->|]; [rewrite <- Hl; apply r8 in Hi; exact Hi|]. eapply hast_ext; [exact r2|]. apply g8; [lia|assumption].
Qed.
Lemma gm_loop ids pos lo L : forall k b, gmade ids pos lo k b -> okp (repeat_build L (gpt2_block c mask) b) (gmade ids pos lo (k + L)).
Proof.
  induction L as [|L IH]; intros k b Hb; cbn [repeat_build]; [rewrite Nat.add_0_r; exact Hb|].
  eapply okp_bind; [apply gm_step; exact Hb|]. intros b1 H1. replace (k + S L)%nat with (S k + L)%nat by lia. apply IH. exact H1.
Qed.
End Gpt.

(** The result of the constructor. *)
Record gbuilt (c : gpt2_config) (mask ids pos : tensor) (n nb nt bt h lo : Z) (b : build) : Prop := {
  gb_inv : binv lo b;
  gb_n : b_n b = (first (c_layers c) + 5)%nat;
  gb_layers : b_layers b = pre_layers ids pos ++ blocks c mask (c_layers c) ++ post_layers c (first (c_layers c));
  gb_acts : b_acts b = [1; 3; 4]%nat ++ blocks_acts (c_layers c) ++ [first (c_layers c); first (c_layers c) + 4]%nat;
  gb_pre : forall i tr, nth_error (pre_nodes c n nb nt bt) i = Some tr -> hasn b i tr;
  gb_blk : forall j i tr, (j < c_layers c)%nat -> nth_error (block_nodes c n nb nt bt h) i = Some tr -> hasn b (first j + i) tr;
  gb_post : forall i tr, nth_error (post_nodes c n nb nt bt) i = Some tr -> hasn b (first (c_layers c) + i) tr;
  gb_tmp : forall j l i tr, (j < c_layers c)%nat -> In (l, i, tr) (block_tmps c n nb nt bt h) -> hast b (Tmp (3 + 8 * j + l) i) (fst tr) (snd tr);
  gb_ptmp : forall i tr, In (i, tr) (norm_tmps c n nb nt bt) -> hast b (Tmp (3 + 8 * c_layers c) i) (fst tr) (snd tr)
}.
Lemma gpt2_ok c ids pos n nb nt bt h next : gdims c n nb nt bt h ->
  t_shape ids = [n; nb] -> t_base ids = [nt; bt] -> t_shape pos = [n] -> t_base pos = [nt] ->
  okp (gpt2 c ids pos next) (fun '(mask, b) => exists lo, next <= lo /\ wf_tensor mask /\ tens mask [n; n] [nt; nt] /\
    (forall h, In h (tile_handles mask) -> next <= h < lo) /\ gbuilt c mask ids pos n nb nt bt h lo b /\ tfree (lid b) b).
Proof.
  intros G I1 I2 P1 P2. assert (Ee := e_pos _ _ _ _ _ _ G). assert (Fh := fit_hid _ _ _ _ _ _ G). assert (G' := G).
  destruct G' as [v1 v2 v3 v4 v5 v6 v7 v8 v9 v10 v11 v12 v13 v14 v15 v16].
  unfold gpt2. rewrite I1, I2. change (zn [n; nb] 0) with n. change (zn [nt; bt] 0) with nt.
  set (b0 := mkB (fun _ => None) next O [] []).
  assert (FM : fit [n; n] [nt; nt]) by (apply fit2; assumption).
  eapply okp_bind; [apply (mk_ok next [n; n] [nt; nt] zeros b0); [exact FM|apply zeros_len; exact FM|apply Z.le_refl]|].
  intros [mask b1] (Wm & Tm & Hm & M1 & Lo & N1 & L1 & A1). set (lo := b_next b1) in *.
  assert (Em : forall x, b_mem b1 x = None) by (intros; rewrite M1; reflexivity).
  assert (B1 : binv lo b1).
  { split; try (intros; rewrite Em in *; discriminate). - apply Z.le_refl. - intros; split; apply Em. }
  assert (R0 : row lo b1 [] [] [] [] [] b1).
  { apply row_start; [exact B1|intros k i _; apply Em|]. rewrite A1. reflexivity. }
  cbn [b_n b_layers b_acts b0] in N1, L1, A1.
  (* the embeddings *)
  eapply okp_bind.
  { eapply (row_push lo b1 [] _ _ _ _ b1 _ (LEmb ids 1 0 0) [([c_embed c; c_vocab c], [c_vocab_tile c; c_vocab c]); hid c n nb nt bt] [] R0).
    eapply okp_weaken; [apply (gen_embedding_ok lo (lid b1) ids); try assumption; rewrite I1, I2; apply fit2; assumption|].
    intros [d b'] (-> & M & T). rewrite N1, I1, I2 in *. split; [reflexivity|]. split; [exact M|intros ? ? []]. }
  intros b2 R1. cbn [app List.length ld_out map] in R1. assert (N2 := rw_n _ _ _ _ _ _ _ _ R1). cbn [List.length] in N2. rewrite N1 in N2. cbn [Nat.add] in N2.
  eapply okp_bind.
  { eapply (row_push lo b1 [] _ _ _ _ b2 _ (LEmb pos 3 2 0) [([c_embed c; c_maxpos c], [c_vocab_tile c; c_maxpos c]); ([c_embed c; n], [c_embed_tile c; nt])] [] R1).
    eapply okp_weaken; [apply (gen_embedding_ok lo (lid b2) pos); try assumption; [apply (rw_inv _ _ _ _ _ _ _ _ R1)|rewrite P1, P2; apply fit1; assumption]|].
    intros [d b'] (-> & M & T). rewrite N2, P1, P2 in *. split; [reflexivity|]. split; [exact M|intros ? ? []]. }
  intros b3 R2. cbn [app List.length ld_out map] in R2. assert (N3 := rw_n _ _ _ _ _ _ _ _ R2). cbn [List.length] in N3. rewrite N1 in N3. cbn [Nat.add] in N3.
  assert (A3 : act b3 1 = 3%nat) by (rewrite (act_row b3 [] _ 1 (rw_acts _ _ _ _ _ _ _ _ R2)) by (cbn; lia); reflexivity).
  assert (A3' : act b3 2 = 1%nat) by (rewrite (act_row b3 [] _ 2 (rw_acts _ _ _ _ _ _ _ _ R2)) by (cbn; lia); reflexivity). rewrite A3, A3'.
  eapply okp_bind.
  { eapply (row_push lo b1 [] _ _ _ _ b3 _ (LAddSlice 1 3 4 2) [hid c n nb nt bt] [] R2).
    pose proof (rw_nodes _ _ _ _ _ _ _ _ R2 1%nat _ eq_refl) as [Hn _]. rewrite N1 in Hn. cbn [Nat.add] in Hn.
    eapply okp_weaken; [apply (gen_add_slice_ok lo (lid b3) 1 3 2 (fst (hid c n nb nt bt)) (snd (hid c n nb nt bt)) b3); [apply (rw_inv _ _ _ _ _ _ _ _ R2)|exact Hn|exact Fh]|].
    intros [d b'] (-> & M & T). rewrite N3 in *. split; [reflexivity|]. split; [exact M|intros ? ? []]. }
  intros b4 R3. cbn [app List.length ld_out map] in R3.
  assert (GM : gmade c mask n nb nt bt h ids pos lo 0 b4).
  { destruct R3 as [r1 r2 r3 r4 r5 r6 r7 r8]. rewrite N1 in *. split; auto.
    - rewrite r4, L1. reflexivity. - intros; lia. - intros; lia. }
  eapply okp_bind; [apply (gm_loop c mask n nb nt bt h G ids pos lo (c_layers c) 0 b4 GM)|]. cbn [Nat.add].
  intros b5 G5. assert (Hl := gm_lid _ _ _ _ _ _ _ _ _ _ _ _ G5). assert (Hh := gm_last _ _ _ _ _ _ _ _ _ _ _ _ G5).
  set (L := c_layers c) in *. destruct (blocks_acts_last L [1; 3]%nat) as (B & HB).
  assert (R5 : row lo b5 B [] [] [first L - 1]%nat [] b5).
  { apply row_start; [apply (gm_inv _ _ _ _ _ _ _ _ _ _ _ _ G5)|apply (gm_free _ _ _ _ _ _ _ _ _ _ _ _ G5)|]. rewrite (gm_acts _ _ _ _ _ _ _ _ _ _ _ _ G5). exact HB. }
  assert (N5 := gm_n _ _ _ _ _ _ _ _ _ _ _ _ G5).
  assert (A5 : act b5 1 = (first L - 1)%nat) by (rewrite (act_row b5 B _ 1 (rw_acts _ _ _ _ _ _ _ _ R5)) by (cbn; lia); reflexivity). rewrite A5.
  eapply okp_bind.
  { eapply (row_push lo b5 B _ _ _ _ b5 _ (LNorm (first L - 1) (first L) (first L + 1) (first L + 2) 0 (sqrt (c_eps c))) [hid c n nb nt bt; ([c_embed c], [c_embed_tile c]); ([c_embed c], [c_embed_tile c])] (norm_tmps c n nb nt bt) R5).
    eapply okp_weaken; [apply (gen_layer_norm_ok lo (first L - 1) (c_eps c) (c_embed c) [n; nb] (c_embed_tile c) [nt; bt] b5); [apply (rw_inv _ _ _ _ _ _ _ _ R5)|apply (rw_free _ _ _ _ _ _ _ _ R5)|exact (proj1 Hh)|exact Fh]|].
    intros [d b'] (-> & M & T0 & T1 & T2 & T3). split; [rewrite N5; reflexivity|]. split; [exact M|]. intros i tr Hi. unfold norm_tmps in Hi.
    destruct Hi as [Hi|[Hi|[Hi|[Hi|[]]]]]; inversion Hi; subst; assumption. }
  intros b6 R6. cbn [app List.length ld_out] in R6. assert (N6 := rw_n _ _ _ _ _ _ _ _ R6). cbn [List.length] in N6. rewrite N5 in N6.
  assert (A6 : act b6 1 = first L) by (rewrite (act_row b6 B _ 1 (rw_acts _ _ _ _ _ _ _ _ R6)) by (cbn; lia); reflexivity). rewrite A6.
  eapply okp_bind.
  { eapply (row_push lo b5 B _ _ _ _ b6 _ (LLinear SideR NoTrans (first L) (first L + 4) (first L + 3) 1 None) [([c_vocab c; c_embed c], [c_vocab c; c_embed_tile c]); ([c_vocab c; n; nb], [c_vocab c; nt; bt])] [] R6).
    pose proof (rw_nodes _ _ _ _ _ _ _ _ R6 0%nat _ eq_refl) as [Hn _]. rewrite N5, Nat.add_0_r in Hn.
    eapply okp_weaken; [apply (gen_linear_ok lo (lid b6) (first L) SideR [n; nb] [nt; bt] [c_embed c] [c_embed_tile c] [c_vocab c] [c_vocab c] false b6);
      [apply (rw_inv _ _ _ _ _ _ _ _ R6)|exact Hn|apply fit2; assumption|apply fit1; assumption|apply fit1; assumption|reflexivity|reflexivity]|].
    intros [d b'] (-> & M & T). split; [rewrite N6, <- !Nat.add_assoc; reflexivity|]. split; [exact M|intros ? ? []]. }
  intros b7 R7. cbn [app List.length ld_out map] in R7. cbn [okp]. exists lo. split; [exact Lo|]. split; [exact Wm|]. split; [exact Tm|]. split; [exact Hm|].
  destruct R7 as [r1 r2 r3 r4 r5 r6 r7 r8]. destruct G5 as [g1 g2 g3 g4 g5 g6 g7 g8]. rewrite N5 in *. split; [|exact r6]. split; fold L; auto.
  - rewrite r4, g3, <- app_assoc. reflexivity.
  - rewrite r5. change (B ++ [(first L - 1)%nat; first L; (first L + 4)%nat]) with (B ++ ([first L - 1]%nat ++ [first L; (first L + 4)%nat])). rewrite app_assoc, <- HB. rewrite <- !app_assoc. reflexivity.
  - intros i tr Hi. eapply hasn_ext; [exact r2|]. auto.
  - intros j i tr Hj Hi. eapply hasn_ext; [exact r2|]. auto.
  - intros j l i tr Hj Hi. eapply hast_ext; [exact r2|]. auto.
  - intros i tr Hi. specialize (r8 O i tr). rewrite Hl, Nat.add_0_r in r8. apply r8. rewrite app_nil_r. apply in_map_iff. exists (i, tr). split; [reflexivity|exact Hi].
Qed.
