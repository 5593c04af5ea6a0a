(** * What the constructor of MlpMixer makes *)
From Coq Require Import Reals Lra.
From Verif Require Import Base Spec Geometry Traits TraitsProofs Runtime Ops RealOps TensorSem ElemGeneric Concrete Axis SliceGeo XReals MatOps XTriples HasRuns PyLayers PyMixer PyModels BuildEnv GptBuild PyMixModels.
Local Close Scope R_scope.
Local Open Scope list_scope.
Local Open Scope Z_scope.

(** layer norm along the last of three dimensions *)
Lemma gen_layer_norm2_ok lo x eps c t e cb tb eb b : binv lo b -> tfree (lid b) b -> hast b (Val x) [c; t; e] [cb; tb; eb] -> fit [c; t; e] [cb; tb; eb] ->
  okp (gen_layer_norm x 2 eps b) (fun '(d, b') => d = LNorm x (b_n b) (b_n b + 1) (b_n b + 2) 2 (sqrt eps) /\
    made lo b [([c; t; e], [cb; tb; eb]); ([e], [eb]); ([e], [eb])] (lid b) b' /\
    hast b' (Tmp (lid b) 0) [c; t; e] [cb; tb; eb] /\ hast b' (Tmp (lid b) 1) [c; t; e] [cb; tb; eb] /\
    hast b' (Tmp (lid b) 2) [c; t] [cb; tb] /\ hast b' (Tmp (lid b) 3) [c; t] [cb; tb]).
Proof.
  intros Hb Ht Hx Hf. destruct (hast_shape _ _ _ _ Hx) as (E1 & E2 & E3). assert (Hf' := Hf). destruct Hf' as (_ & F2 & F3).
  assert (F0 : fit [e] [eb]).
  { inversion F2 as [|? ? P1 P2]; subst. inversion P2 as [|? ? P3 P4]; subst. inversion P4; subst. inversion F3 as [|? ? Q1 Q2]; subst. inversion Q2 as [|? ? Q3 Q4]; subst. inversion Q4; subst. apply fit1; assumption. }
  assert (FR : fit [c; t] [cb; tb]).
  { inversion F2 as [|? ? P1 P2]; subst. inversion P2 as [|? ? P3 P4]; subst. inversion F3 as [|? ? Q1 Q2]; subst. inversion Q2 as [|? ? Q3 Q4]; subst. apply fit2; assumption. }
  unfold gen_layer_norm. rewrite E1, E2. set (l := lid b) in *. change (zn [c; t; e] 2) with e. change (zn [cb; tb; eb] 2) with eb.
  change (del 2 [c; t; e]) with [c; t]. change (del 2 [cb; tb; eb]) with [cb; tb].
  eapply okp_bind; [apply (moments_ok lo l); assumption|]. intros [y b1] (-> & M1 & T1).
  eapply okp_bind; [apply (moments_ok lo l); [apply (ma_inv _ _ _ _ _ M1)|exact F0|apply zeros_len; exact F0]|]. intros [g b2] (-> & M2 & T2).
  eapply okp_bind; [apply (moments_ok lo l); [apply (ma_inv _ _ _ _ _ M2)|exact F0|apply zeros_len; exact F0]|]. intros [be b3] (-> & M3 & T3).
  assert (L3 : lid b3 = l) by (unfold lid; rewrite (ma_layers _ _ _ _ _ M3), (ma_layers _ _ _ _ _ M2), (ma_layers _ _ _ _ _ M1); reflexivity).
  cbv beta zeta. rewrite L3.
  assert (Fr : forall i, b_mem b3 (Tmp l i) = None) by (intros i; rewrite T3, T2, T1; apply Ht; reflexivity).
  eapply okp_bind; [apply (tmp_ok lo 0); [apply (ma_inv _ _ _ _ _ M3)|apply Fr|exact Hf|exact E3]|]. intros b4 (M4 & H4 & T4).
  eapply okp_bind; [apply (tmp_ok lo 1); [apply (ma_inv _ _ _ _ _ M4)|rewrite T4 by discriminate; apply Fr|exact Hf|exact E3]|]. intros b5 (M5 & H5 & T5).
  eapply okp_bind; [apply (tmp_ok lo 2); [apply (ma_inv _ _ _ _ _ M5)|rewrite T5, T4 by discriminate; apply Fr|exact FR|apply zeros_len; exact FR]|]. intros b6 (M6 & H6 & T6).
  eapply okp_bind; [apply (tmp_ok lo 3); [apply (ma_inv _ _ _ _ _ M6)|rewrite T6, T5, T4 by discriminate; apply Fr|exact FR|apply zeros_len; exact FR]|]. intros b7 (M7 & H7 & T7).
  cbn [okp].
  assert (X76 := ma_ext _ _ _ _ _ M7). assert (X65 := ma_ext _ _ _ _ _ M6). assert (X54 := ma_ext _ _ _ _ _ M5).
  split; [|split; [|split; [|split; [|split]]]].
  - rewrite (ma_n _ _ _ _ _ M2), (ma_n _ _ _ _ _ M1). cbn [List.length]. f_equal; lia.
  - exact (made_trans _ _ _ _ _ _ _ M1 (made_trans _ _ _ _ _ _ _ M2 (made_trans _ _ _ _ _ _ _ M3 (made_trans _ _ _ _ _ _ _ M4 (made_trans _ _ _ _ _ _ _ M5 (made_trans _ _ _ _ _ _ _ M6 M7)))))).
  - eapply hast_ext; [exact X76|]. eapply hast_ext; [exact X65|]. eapply hast_ext; [exact X54|]. exact H4.
  - eapply hast_ext; [exact X76|]. eapply hast_ext; [exact X65|]. exact H5.
  - eapply hast_ext; [exact X76|]. exact H6.
  - exact H7.
Qed.

Section Mix.
(** C channels, B samples in tiles of bt, E features inside, Q features of the input in tiles of Qt, V classes *)
Variables (C B bt E Q Qt V : Z).
Notation JC := (C * 4). Notation JE := (E * 4).
Definition mhid : dims := ([C; B; E], [C; bt; E]).
Definition innR : dims := ([JC; B; E], [JC; bt; E]).
Definition innL : dims := ([C; B; JE], [C; bt; JE]).
Definition mix_nodes : list dims :=
  [mhid; ([E], [E]); ([E], [E])] ++ [([JC; C], [JC; C]); innR] ++ [innR] ++ [([C; JC], [C; JC]); mhid] ++
  [mhid; ([E], [E]); ([E], [E])] ++ [([E; JE], [E; JE]); innL] ++ [innL] ++ [([JE; E], [JE; E]); mhid].
(** [N]: number of the first object of a Mixer; the input is object [N - 1] *)
Definition mix_layers (N : nat) : list ldesc :=
  [LNorm (N - 1) N (N + 1) (N + 2) 2 (sqrt mixer_eps);
   LLinear SideR NoTrans N (N + 4) (N + 3) 1 None; LAct Gelu (N + 4) (N + 5); LLinear SideR NoTrans (N + 5) (N + 7) (N + 6) 1 None;
   LNorm (N + 7) (N + 8) (N + 9) (N + 10) 2 (sqrt mixer_eps);
   LLinear SideL NoTrans (N + 8) (N + 12) (N + 11) 1 None; LAct Gelu (N + 12) (N + 13); LLinear SideL NoTrans (N + 13) (N + 15) (N + 14) 1 None].
Definition mix_outs (N : nat) : list nat := [N; N + 4; N + 5; N + 7; N + 8; N + 12; N + 13; N + 15]%nat.
Definition mnorm_tmps : list (nat * dims) := [(0%nat, mhid); (1%nat, mhid); (2%nat, ([C; B], [C; bt])); (3%nat, ([C; B], [C; bt]))].
Definition mix_tmps : list (nat * nat * dims) := map (fun u => (0%nat, fst u, snd u)) mnorm_tmps ++ map (fun u => (4%nat, fst u, snd u)) mnorm_tmps.
Definition mfirst (k : nat) : nat := (3 + 16 * k)%nat.
Definition mix_obj (k : nat) : mobj := OMixer (1 + 8 * k) (mfirst k - 1) (mix_layers (mfirst k)).

Record mdims : Prop := { md_C : 0 < C; md_B : 0 < B; md_bt : 0 < bt; md_E : 0 < E; md_Q : 0 < Q; md_Qt : 0 < Qt; md_V : 0 < V }.
Hypothesis G : mdims.
Lemma fit3 a b c a' b' c' : 0 < a -> 0 < b -> 0 < c -> 0 < a' -> 0 < b' -> 0 < c' -> fit [a; b; c] [a'; b'; c'].
Proof. intros. split; [reflexivity|]. split; repeat constructor; assumption. Qed.

Ltac nodeof HR i := let H := fresh "Hn" in pose proof (rw_nodes _ _ _ _ _ _ _ _ HR i _ eq_refl) as H; destruct H as [H _]; unfold mhid, innR, innL in H; cbn [fst snd] in H.
Ltac ps := destruct G; first [assumption|lia].
Ltac fits := first [apply fit1; ps|apply fit2; ps|apply fit3; ps].

(** one push of each kind, from a row *)
Section Steps.
Variables (lo : Z) (b0 : build) (A : list nat).
Lemma step_norm trs ds acs ts b x : row lo b0 A trs ds acs ts b -> hast b (Val x) [C; B; E] [C; bt; E] ->
  okp (push (gen_layer_norm x 2 mixer_eps b)) (row lo b0 A (trs ++ [mhid; ([E], [E]); ([E], [E])]) (ds ++ [LNorm x (b_n b) (b_n b + 1) (b_n b + 2) 2 (sqrt mixer_eps)])
    (acs ++ [b_n b]) (ts ++ map (fun u => (List.length ds, fst u, snd u)) mnorm_tmps)).
Proof.
  intros R Hx. apply (row_push lo b0 A trs ds acs ts b _ (LNorm x (b_n b) (b_n b + 1) (b_n b + 2) 2 (sqrt mixer_eps)) [mhid; ([E], [E]); ([E], [E])] mnorm_tmps R).
  eapply okp_weaken; [apply (gen_layer_norm2_ok lo x mixer_eps C B E C bt E b); [apply (rw_inv _ _ _ _ _ _ _ _ R)|apply (rw_free _ _ _ _ _ _ _ _ R)|exact Hx|fits]|].
  intros [d b'] (-> & M & T0 & T1 & T2 & T3). split; [reflexivity|]. split; [exact M|]. intros i tr Hi. unfold mnorm_tmps in Hi.
  destruct Hi as [Hi|[Hi|[Hi|[Hi|[]]]]]; inversion Hi; subst; assumption.
Qed.
Lemma step_act trs ds acs ts b x sh ba : row lo b0 A trs ds acs ts b -> hast b (Val x) sh ba -> fit sh ba ->
  okp (push (gen_act x Gelu b)) (row lo b0 A (trs ++ [(sh, ba)]) (ds ++ [LAct Gelu x (b_n b)]) (acs ++ [b_n b]) ts).
Proof.
  intros R Hx Hf. pose proof (row_push lo b0 A trs ds acs ts b (gen_act x Gelu b) (LAct Gelu x (b_n b)) [(sh, ba)] [] R) as K. cbn [map] in K. rewrite app_nil_r in K. apply K.
  eapply okp_weaken; [apply (gen_act_ok lo (lid b) x Gelu sh ba b); [apply (rw_inv _ _ _ _ _ _ _ _ R)|exact Hx|exact Hf]|].
  intros [d b'] (-> & M & T). split; [reflexivity|]. split; [exact M|intros ? ? []].
Qed.
Lemma step_lin trs ds acs ts b x sd (sI bI : list Z) (k kb j jb : Z) : row lo b0 A trs ds acs ts b -> hast b (Val x) (lin_x sd sI [k]) (lin_x sd bI [kb]) ->
  fit sI bI -> fit [k] [kb] -> fit [j] [jb] ->
  okp (push (gen_linear x sd NoTrans 1 [j] [jb] false b)) (row lo b0 A (trs ++ [(lin_w sd [k] [j], lin_w sd [kb] [jb]); (lin_y sd sI [j], lin_y sd bI [jb])])
    (ds ++ [LLinear sd NoTrans x (b_n b + 1) (b_n b) 1 None]) (acs ++ [(b_n b + 1)%nat]) ts).
Proof.
  intros R Hx F1 F2 F3. pose proof (row_push lo b0 A trs ds acs ts b (gen_linear x sd NoTrans 1 [j] [jb] false b) (LLinear sd NoTrans x (b_n b + 1) (b_n b) 1 None)
    [(lin_w sd [k] [j], lin_w sd [kb] [jb]); (lin_y sd sI [j], lin_y sd bI [jb])] [] R) as K. cbn [map] in K. rewrite app_nil_r in K. apply K.
  eapply okp_weaken; [apply (gen_linear_ok lo (lid b) x sd sI bI [k] [kb] [j] [jb] false b); [apply (rw_inv _ _ _ _ _ _ _ _ R)|exact Hx|exact F1|exact F2|exact F3|reflexivity|reflexivity]|].
  intros [d b'] (-> & M & T). split; [reflexivity|]. split; [exact M|intros ? ? []].
Qed.
End Steps.

Lemma mix_ok lo b A : binv lo b -> tfree (lid b) b -> (0 < b_n b)%nat -> b_acts b = A -> hasn b (b_n b - 1) mhid ->
  okp (gen_mixer (b_n b - 1) b) (fun '(o, b') => o = OMixer (lid b) (b_n b - 1) (mix_layers (b_n b)) /\ row lo b A mix_nodes (mix_layers (b_n b)) (mix_outs (b_n b)) mix_tmps b').
Proof.
  intros Hb Ht HN Ha [Hp _]. unfold mhid in Hp. cbn [fst snd] in Hp. unfold gen_mixer. set (N := b_n b) in *.
  assert (R0 : row lo b A [] [] [] [] b) by (apply row_start; [assumption|assumption|rewrite app_nil_r; assumption]).
  (* norm *)
  eapply okp_bind; [apply (step_norm lo b A _ _ _ _ b (N - 1) R0 Hp)|]. intros b1 R1. cbn [app List.length ld_out] in R1. fold N in R1.
  assert (N1 := rw_n _ _ _ _ _ _ _ _ R1). cbn [List.length] in N1. fold N in N1.
  assert (A1 : act b1 1 = N) by (rewrite (act_row b1 A _ 1 (rw_acts _ _ _ _ _ _ _ _ R1)) by (cbn; lia); reflexivity). rewrite A1.
  nodeof R1 0%nat. fold N in Hn. rewrite Nat.add_0_r in Hn.
  (* mlp over the channels *)
  assert (HM : okp (gen_mixer_mlp N SideR b1) (row lo b A ([mhid; ([E], [E]); ([E], [E])] ++ [([JC; C], [JC; C]); innR] ++ [innR] ++ [([C; JC], [C; JC]); mhid])
      (firstn 4 (mix_layers N)) (firstn 4 (mix_outs N)) (map (fun u => (0%nat, fst u, snd u)) mnorm_tmps))).
  { unfold gen_mixer_mlp. destruct (hast_shape _ _ _ _ Hn) as (S1 & _ & _). rewrite S1. change (zn [C; B; E] 0) with C.
    eapply okp_bind; [apply (step_lin lo b A _ _ _ _ b1 N SideR [B; E] [bt; E] C C JC JC R1 Hn); fits|]. intros b2 R2. cbn [app lin_w lin_y] in R2. rewrite N1, <- !Nat.add_assoc in R2. cbn [Nat.add] in R2.
    assert (N2 := rw_n _ _ _ _ _ _ _ _ R2). cbn [List.length] in N2. fold N in N2.
    assert (A2 : act b2 1 = (N + 4)%nat) by (rewrite (act_row b2 A _ 1 (rw_acts _ _ _ _ _ _ _ _ R2)) by (cbn; lia); reflexivity). rewrite A2. nodeof R2 4%nat. fold N in Hn0.
    eapply okp_bind; [apply (step_act lo b A _ _ _ _ b2 (N + 4) [JC; B; E] [JC; bt; E] R2 Hn0); fits|]. intros b3 R3. cbn [app] in R3. rewrite N2 in R3.
    assert (N3 := rw_n _ _ _ _ _ _ _ _ R3). cbn [List.length] in N3. fold N in N3.
    assert (A3 : act b3 1 = (N + 5)%nat) by (rewrite (act_row b3 A _ 1 (rw_acts _ _ _ _ _ _ _ _ R3)) by (cbn; lia); reflexivity). rewrite A3. nodeof R3 5%nat. fold N in Hn1.
    eapply okp_weaken; [apply (step_lin lo b A _ _ _ _ b3 (N + 5) SideR [B; E] [bt; E] JC JC C C R3 Hn1); fits|]. intros b4 R4. cbn [app lin_w lin_y] in R4. rewrite N3, <- !Nat.add_assoc in R4. exact R4. }
  eapply okp_bind; [exact HM|]. clear HM. intros b4 R4. cbn [app firstn mix_layers mix_outs] in R4.
  assert (N4 := rw_n _ _ _ _ _ _ _ _ R4). cbn [List.length] in N4. fold N in N4.
  assert (A4 : act b4 1 = (N + 7)%nat) by (rewrite (act_row b4 A _ 1 (rw_acts _ _ _ _ _ _ _ _ R4)) by (cbn; lia); reflexivity). rewrite A4. nodeof R4 7%nat. fold N in Hn0.
  eapply okp_bind; [apply (step_norm lo b A _ _ _ _ b4 (N + 7) R4 Hn0)|]. intros b5 R5. cbn [app List.length] in R5. rewrite N4, <- !Nat.add_assoc in R5. cbn [Nat.add] in R5.
  assert (N5 := rw_n _ _ _ _ _ _ _ _ R5). cbn [List.length] in N5. fold N in N5.
  assert (A5 : act b5 1 = (N + 8)%nat) by (rewrite (act_row b5 A _ 1 (rw_acts _ _ _ _ _ _ _ _ R5)) by (cbn; lia); reflexivity). rewrite A5.
  nodeof R5 8%nat. fold N in Hn1.
  (* mlp over the features *)
  assert (HM : okp (gen_mixer_mlp (N + 8) SideL b5) (row lo b A mix_nodes (mix_layers N) (mix_outs N) mix_tmps)).
  { unfold gen_mixer_mlp. destruct (hast_shape _ _ _ _ Hn1) as (S1 & _ & _). rewrite S1. change (last [C; B; E] 0) with E.
    eapply okp_bind; [apply (step_lin lo b A _ _ _ _ b5 (N + 8) SideL [C; B] [C; bt] E E JE JE R5 Hn1); fits|]. intros b6 R6. cbn [app lin_w lin_y] in R6. rewrite N5, <- !Nat.add_assoc in R6. cbn [Nat.add] in R6.
    assert (N6 := rw_n _ _ _ _ _ _ _ _ R6). cbn [List.length] in N6. fold N in N6.
    assert (A6 : act b6 1 = (N + 12)%nat) by (rewrite (act_row b6 A _ 1 (rw_acts _ _ _ _ _ _ _ _ R6)) by (cbn; lia); reflexivity). rewrite A6. nodeof R6 12%nat. fold N in Hn2.
    eapply okp_bind; [apply (step_act lo b A _ _ _ _ b6 (N + 12) [C; B; JE] [C; bt; JE] R6 Hn2); fits|]. intros b7 R7. cbn [app] in R7. rewrite N6 in R7.
    assert (N7 := rw_n _ _ _ _ _ _ _ _ R7). cbn [List.length] in N7. fold N in N7.
    assert (A7 : act b7 1 = (N + 13)%nat) by (rewrite (act_row b7 A _ 1 (rw_acts _ _ _ _ _ _ _ _ R7)) by (cbn; lia); reflexivity). rewrite A7. nodeof R7 13%nat. fold N in Hn3.
    eapply okp_weaken; [apply (step_lin lo b A _ _ _ _ b7 (N + 13) SideL [C; B] [C; bt] JE JE E E R7 Hn3); fits|]. intros b8 R8. cbn [app lin_w lin_y] in R8. rewrite N7, <- !Nat.add_assoc in R8. exact R8. }
  eapply okp_bind; [exact HM|]. intros b8 R8. cbn [okp]. split; [|exact R8].
  f_equal. rewrite (rw_layers _ _ _ _ _ _ _ _ R8). unfold lid. rewrite skipn_app, skipn_all, Nat.sub_diag. reflexivity.
Qed.

(** ** The loop *)
Definition mixers (k : nat) : list ldesc := flat_map (fun i => mix_layers (mfirst i)) (seq 0 k).
Definition mixers_outs (k : nat) : list nat := flat_map (fun i => mix_outs (mfirst i)) (seq 0 k).
Definition mix_pre : list ldesc := [LLinear SideL NoTrans 0 2 1 1 None].
Definition mix_pre_nodes : list dims := [([Q; E], [Qt; E]); mhid].
Definition mix_objs (k : nat) : list mobj := OLayer 0 (LLinear SideL NoTrans 0 2 1 1 None) :: map mix_obj (seq 0 k).
Lemma mixers_len k : List.length (mixers k) = (8 * k)%nat.
Proof. induction k as [|k IH]; [reflexivity|]. unfold mixers in *. rewrite seq_last, app_length, IH. cbn [List.length mix_layers]. lia. Qed.
Lemma last_app_ne {X} (l l' : list X) d : l' <> [] -> last (l ++ l') d = last l' d.
Proof. intros Hn. induction l as [|x l IH]; [reflexivity|]. cbn [app last]. destruct (l ++ l') eqn:Eq; [destruct l; [cbn in Eq; congruence|discriminate]|]. exact IH. Qed.
Lemma last_out_snoc os o : last_out (os ++ [o]) = obj_out o.
Proof. unfold last_out. rewrite map_app. cbn [map]. rewrite (last_app_ne (O :: map obj_out os) [obj_out o]) by discriminate. reflexivity. Qed.
Lemma mix_last k : last_out (mix_objs k) = (mfirst k - 1)%nat.
Proof.
  destruct k as [|k]; [reflexivity|]. unfold mix_objs. rewrite seq_S, map_app. cbn [map].
  change (OLayer 0 ?d :: ?l ++ ?r) with ((OLayer 0 d :: l) ++ r). rewrite last_out_snoc. cbn [obj_out mix_obj mix_layers map ld_out last Nat.add]. unfold mfirst. lia.
Qed.
Record mmade (x : tensor) (lo : Z) (k : nat) (b : build) : Prop := {
  mm_inv : binv lo b;
  mm_n : b_n b = mfirst k;
  mm_layers : b_layers b = mix_pre ++ mixers k;
  mm_free : tfree (lid b) b;
  mm_x : b_mem b (Val 0) = Some x;
  mm_pre : forall i tr, nth_error mix_pre_nodes i = Some tr -> hasn b (1 + i) tr;
  mm_blk : forall j i tr, (j < k)%nat -> nth_error mix_nodes i = Some tr -> hasn b (mfirst j + i) tr;
  mm_tmp : forall j l i tr, (j < k)%nat -> In (l, i, tr) mix_tmps -> hast b (Tmp (1 + 8 * j + l) i) (fst tr) (snd tr)
}.
Lemma mm_lid x lo k b : mmade x lo k b -> lid b = (1 + 8 * k)%nat.
Proof. intros [_ _ H _ _ _ _ _]. unfold lid. rewrite H, app_length, mixers_len. reflexivity. Qed.
Lemma mm_in x lo k b : mmade x lo k b -> hasn b (mfirst k - 1) mhid.
Proof.
  intros [_ _ _ _ _ H1 H2 _]. destruct k as [|k]; [apply (H1 1%nat); reflexivity|].
  replace (mfirst (S k) - 1)%nat with (mfirst k + 15)%nat by (unfold mfirst; lia). apply (H2 k 15%nat); [lia|]. reflexivity.
Qed.
Lemma mm_step x lo k b : mmade x lo k b -> okp (gen_mixer (mfirst k - 1) b) (fun '(o, b') => o = mix_obj k /\ mmade x lo (S k) b').
Proof.
  intros Hg. assert (Hl := mm_lid _ _ _ _ Hg). assert (Hh := mm_in _ _ _ _ Hg). destruct Hg as [g1 g2 g3 g4 g5 g6 g7 g8].
  pose proof (mix_ok lo b (b_acts b) g1 g4) as K. rewrite g2 in K. specialize (K ltac:(unfold mfirst; lia) eq_refl Hh).
  eapply okp_weaken; [exact K|]. intros [o b'] (-> & [r1 r2 r3 r4 r5 r6 r7 r8]). rewrite Hl. split; [reflexivity|]. rewrite g2 in *. split; auto.
  - rewrite r3. cbn. unfold mfirst. lia.
  - rewrite r4, g3. unfold mixers. rewrite seq_last, app_assoc. reflexivity.
  - intros i tr Hi. eapply hasn_ext; [exact r2|]. auto.
  - intros j i tr Hj Hi. destruct (Nat.eq_dec j k) as [->|]; [auto|]. eapply hasn_ext; [exact r2|]. apply g7; [lia|assumption].
  - intros j l i tr Hj Hi. destruct (Nat.eq_dec j k) as [->|]; [rewrite <- Hl; apply r8 in Hi; exact Hi|]. eapply hast_ext; [exact r2|]. apply g8; [lia|assumption].
Qed.
Lemma mm_loop x lo n : forall k b, mmade x lo k b -> okp (add_mixers n (mix_objs k) b) (fun '(os, b') => os = mix_objs (k + n) /\ mmade x lo (k + n) b').
Proof.
  induction n as [|n IH]; intros k b Hb; cbn [add_mixers]; [rewrite Nat.add_0_r; split; [reflexivity|exact Hb]|].
  rewrite mix_last. eapply okp_bind; [apply mm_step; exact Hb|]. intros [o b1] (-> & H1).
  replace (mix_objs k ++ [mix_obj k]) with (mix_objs (S k)) by (unfold mix_objs; rewrite seq_S, map_app; reflexivity).
  replace (k + S n)%nat with (S k + n)%nat by lia. apply IH. exact H1.
Qed.

(** ** The whole constructor *)
Definition mix_post_nodes : list dims := [([B; E], [bt; E]); ([E; B], [E; bt]); ([V; E], [V; E]); ([V; B], [V; bt])].
Definition head_layer (F : nat) : ldesc := LLinear SideR NoTrans (F + 1) (F + 3) (F + 2) 1 None.
Definition all_objs (n : nat) : list mobj := mix_objs n ++ [OGap (mfirst n - 1) (mfirst n + 1) (mfirst n); OLayer (1 + 8 * n) (head_layer (mfirst n))].
Record mbuilt (x : tensor) (n : nat) (lo : Z) (b : build) : Prop := {
  mb_inv : binv lo b;
  mb_n : b_n b = (mfirst n + 4)%nat;
  mb_layers : b_layers b = mix_pre ++ mixers n ++ [head_layer (mfirst n)];
  mb_x : b_mem b (Val 0) = Some x;
  mb_pre : forall i tr, nth_error mix_pre_nodes i = Some tr -> hasn b (1 + i) tr;
  mb_blk : forall j i tr, (j < n)%nat -> nth_error mix_nodes i = Some tr -> hasn b (mfirst j + i) tr;
  mb_post : forall i tr, nth_error mix_post_nodes i = Some tr -> hasn b (mfirst n + i) tr;
  mb_tmp : forall j l i tr, (j < n)%nat -> In (l, i, tr) mix_tmps -> hast b (Tmp (1 + 8 * j + l) i) (fst tr) (snd tr)
}.
Lemma mlp_mixer_ok x n lo next : (0 < n)%nat -> wf_tensor x -> tens x [C; B; Q] [C; bt; Qt] -> lo <= next -> (forall h, In h (tile_handles x) -> lo <= h < next) ->
  okp (mlp_mixer x E n V next) (fun '(os, b) => os = all_objs n /\ mbuilt x n lo b /\ tfree (lid b) b).
Proof.
  intros Hn Wx Tx Hlo Hx. unfold mlp_mixer. destruct (Z.ltb_spec (Z.of_nat n) 1); [lia|]. cbn [throw_if]. set (b0 := input_build x None next).
  assert (B0 : binv lo b0).
  { split; cbn [b_mem b_next b_n b0 input_build].
    - assumption.
    - intros [[|m]|[|m]|l m] t Ht; try discriminate. congruence.
    - intros [[|m]|[|m]|l m] t h Ht Hh; try discriminate. apply Hx. congruence.
    - intros [[|m]|[|m]|l m] [[|m']|[|m']|l' m'] t u Ht Hu Hne; try discriminate. congruence.
    - intros m Hm. destruct m; [lia|]. split; reflexivity. }
  assert (R0 : row lo b0 [O] [] [] [] [] b0) by (apply row_start; [exact B0|intros k i _; reflexivity|reflexivity]).
  assert (H0 : hast b0 (Val 0) [C; B; Q] [C; bt; Qt]) by (exists x; split; [reflexivity|exact Tx]).
  eapply okp_bind.
  { unfold model_linear. eapply okp_bind; [apply (step_lin lo b0 [O] _ _ _ _ b0 0 SideL [C; B] [C; bt] Q Qt E E R0 H0); fits|]. intros b1 R1. cbn [app lin_w lin_y b_n b0 input_build Nat.add] in R1.
    cbn [okp]. instantiate (1 := fun '(o, b1) => o = OLayer 0 (LLinear SideL NoTrans 0 2 1 1 None) /\ mmade x lo 0 b1). cbv beta iota.
    destruct R1 as [r1 r2 r3 r4 r5 r6 r7 r8]. split; [rewrite r4; reflexivity|]. split; auto; try (intros; lia). }
  intros [o b1] (-> & M1). eapply okp_bind; [apply (mm_loop x lo n 0 b1 M1)|]. cbn [Nat.add]. intros [os b2] (-> & M2). rewrite mix_last.
  assert (Hl := mm_lid _ _ _ _ M2). assert (Hh := mm_in _ _ _ _ M2). destruct M2 as [g1 g2 g3 g4 g5 g6 g7 g8].
  (* GAP *)
  eapply okp_bind.
  { unfold gen_gap. destruct Hh as [Hv _]. destruct (hast_shape _ _ _ _ Hv) as (S1 & S2 & _). rewrite S1, S2. cbn [fst snd mhid]. change (sl_from 1 [C; B; E]) with [B; E]. change (sl_from 1 [C; bt; E]) with [bt; E].
    cbn [rev app]. assert (F1 : fit [B; E] [bt; E]) by fits. assert (F2 : fit [E; B] [E; bt]) by fits.
    eapply okp_bind; [apply (moments_ok lo (lid b2)); [exact g1|exact F1|apply zeros_len; exact F1]|]. intros [m b3] (-> & N1 & T1).
    eapply okp_bind; [apply (moments_ok lo (lid b2)); [apply (ma_inv _ _ _ _ _ N1)|exact F2|apply zeros_len; exact F2]|]. intros [m b4] (-> & N2 & T2).
    cbn [okp]. instantiate (1 := fun '(o, b4) => o = OGap (mfirst n - 1) (mfirst n + 1) (mfirst n) /\ made lo b2 [([B; E], [bt; E]); ([E; B], [E; bt])] (lid b2) b4 /\ (forall k i, b_mem b4 (Tmp k i) = b_mem b2 (Tmp k i))). cbv beta iota.
    split; [rewrite (ma_n _ _ _ _ _ N1), g2; reflexivity|]. split; [exact (made_trans _ _ _ _ _ _ _ N1 N2)|]. intros. rewrite T2, T1. reflexivity. }
  intros [o b3] (-> & M3 & T3). rewrite last_out_snoc. cbn [obj_out].
  assert (E3 := ma_layers _ _ _ _ _ M3). assert (N3 := ma_n _ _ _ _ _ M3). rewrite g2 in N3. cbn [List.length] in N3.
  assert (L3 : lid b3 = (1 + 8 * n)%nat) by (unfold lid in *; rewrite E3; exact Hl).
  pose proof (ma_nodes _ _ _ _ _ M3 1%nat _ eq_refl) as [Hy _]. rewrite g2 in Hy. cbn [fst snd] in Hy.
  assert (R3 : row lo b3 (b_acts b3) [] [] [] [] b3).
  { apply row_start; [apply (ma_inv _ _ _ _ _ M3)|intros k i Hk; rewrite T3; apply g4; rewrite Hl; rewrite L3 in Hk; exact Hk|rewrite app_nil_r; reflexivity]. }
  unfold model_linear. eapply okp_bind.
  { eapply okp_bind; [apply (step_lin lo b3 _ _ _ _ _ b3 (mfirst n + 1) SideR [B] [bt] E E V V R3 Hy); fits|]. intros b4 R4. cbn [app lin_w lin_y] in R4. rewrite N3, <- !Nat.add_assoc in R4. cbn [Nat.add] in R4.
    cbn [okp]. instantiate (1 := fun '(o, b4) => o = OLayer (1 + 8 * n) (head_layer (mfirst n)) /\ row lo b3 (b_acts b3) [([V; E], [V; E]); ([V; B], [V; bt])] [head_layer (mfirst n)] [(mfirst n + 3)%nat] [] b4). cbv beta iota.
    split; [|exact R4]. rewrite L3, (rw_layers _ _ _ _ _ _ _ _ R4), last_app_ne by discriminate. reflexivity. }
  intros [o b4] (-> & [r1 r2 r3 r4 r5 r6 r7 r8]). cbn [okp]. split; [unfold all_objs; rewrite <- app_assoc; reflexivity|].
  assert (X : ext b2 b4) by (eapply ext_trans; [exact (ma_ext _ _ _ _ _ M3)|exact r2]).
  split; [|assumption]. split; auto.
  - rewrite r3, N3. cbn. lia.
  - rewrite r4, E3, g3, <- app_assoc. reflexivity.
  - intros i tr Hi. eapply hasn_ext; [exact X|]. auto.
  - intros j i tr Hj Hi. eapply hasn_ext; [exact X|]. auto.
  - intros i tr Hi. destruct i as [|[|i]].
    + eapply hasn_ext; [exact r2|]. pose proof (ma_nodes _ _ _ _ _ M3 0%nat tr Hi) as K. rewrite g2 in K. exact K.
    + eapply hasn_ext; [exact r2|]. pose proof (ma_nodes _ _ _ _ _ M3 1%nat tr Hi) as K. rewrite g2 in K. exact K.
    + specialize (r7 i tr Hi). rewrite N3 in r7. replace (mfirst n + S (S i))%nat with (mfirst n + 2 + i)%nat by lia. exact r7.
  - intros j l i tr Hj Hi. eapply hast_ext; [exact X|]. auto.
Qed.
End Mix.
