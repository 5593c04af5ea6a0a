(** * C62: the layers Mixer and GAP *)
From Coq Require Import Reals Lra FunctionalExtensionality.
From Coquelicot Require Import Coquelicot.
From Verif Require Import Base Spec Geometry Traits TraitsProofs Runtime Ops RealOps TensorSem OneOut ElemOps Axis SliceOps SliceGeo PropElem MatOps MatProofs AttMath XReals RSum Sequence NdRuns AnyRuns PropDeriv AttnSpec PropMat XTriples HasRuns HasRuns2 TapeMath VjpMath Tape PyLayers PyLinear PySimple PyNorm Backprop PropLayers PropModel BuildModel Segments SegDiff PyMixer MixerRuns GptSpec MixSpec MixerSeg GptRun.
Local Close Scope Z_scope.
Local Open Scope R_scope.
Notation lms ls := (map ly_m ls).
Notation ids ls := (map ly_id ls).

Section Mix.
Context {E : env} (req : nat -> bool).

(** The inputs (x, and gamma, beta, linear_1.w, linear_2.w of both halves) and the intermediate
    activations of a Mixer. *)
Definition mixer_ins (h1 h2 : half) : list nat := [h_x h1; h_g h1; h_be h1; h_w1 h1; h_w2 h1; h_g h2; h_be h2; h_w1 h2; h_w2 h2].
Definition mixer_hid (h1 h2 : half) : list nat := [h_n h1; h_a h1; h_b h1; h_y h1; h_n h2; h_a h2; h_b h2].
(** A Mixer over arrays with C channels, B samples, F features; inner sizes JC and JF. *)
Record mixer_ok (h1 h2 : half) (C B F JC JF : Z) : Prop := {
  mk_1 : half_ok req h1; mk_2 : half_ok req h2; mk_x : h_x h2 = h_y h1;
  mk_s1 : h_sd h1 = SideR /\ h_sI h1 = [B; F] /\ h_sK h1 = [C] /\ h_sJ h1 = [JC];
  mk_s2 : h_sd h2 = SideL /\ h_sI h2 = [C; B] /\ h_sK h2 = [F] /\ h_sJ h2 = [JF];
  mk_axis : h_axis h1 = 2%Z /\ h_axis h2 = 2%Z; mk_eps : h_eps h2 = h_eps h1;
  mk_shape : vshape (h_x h1) = [C; B; F];
  mk_ids : NoDup (ids (h_layers req h1 ++ h_layers req h2));
  mk_nodes : NoDup (mixer_ins h1 h2 ++ mixer_hid h1 h2 ++ [h_y h2])
}.
Definition mixer_object (h1 h2 : half) : pylayer XR :=
  mixer (ly_py (h_norm req h1)) (h_mlp req h1) (ly_py (h_norm req h2)) (h_mlp req h2) (node req (h_x h1)) (node req (h_y h1)) (node req (h_y h2)).

Lemma res_reads h : reads_inputs (ly_m (h_res req h)).
Proof. intros vs vs' H. split; [|auto]. cbn [ly_m h_res ml_F]. unfold lin_F. rewrite (H 0%nat), (H 1%nat), (H 2%nat) by (cbn; lia). reflexivity. Qed.
Lemma half_reads h : Forall reads_inputs (lms (h_layers req h)).
Proof. repeat apply Forall_cons; [apply ln_reads|apply linear_reads|apply act_reads|apply res_reads|constructor]. Qed.
Lemma ordered_mixer h1 h2 C B F JC JF : mixer_ok h1 h2 C B F JC JF -> ordered (lms (h_layers req h1 ++ h_layers req h2)) (mixer_ins h1 h2).
Proof.
  intros H. pose proof (mk_nodes _ _ _ _ _ _ _ H) as Hn. pose proof (mk_x _ _ _ _ _ _ _ H) as Ex.
  destruct h1 as [x1 n1 g1 be1 w11 a1 b1 w12 y1 id1 sd1 ax1 ep1 sI1 sK1 sJ1 bI1 bK1 bJ1], h2 as [x2 n2 g2 be2 w21 a2 b2 w22 y2 id2 sd2 ax2 ep2 sI2 sK2 sJ2 bI2 bK2 bJ2].
  clear H. cbn in Ex. subst x2. unfold mixer_ins, mixer_hid in *. cbn [h_x h_g h_be h_w1 h_w2 h_n h_a h_b h_y app] in *.
  cbn [h_layers h_norm h_lin1 h_act h_res map app ly_m ln_layer linear_layer act_layer h_x h_g h_be h_w1 h_w2 h_n h_a h_b h_y ordered ml_out ml_ins opt_list].
  repeat match goal with H : NoDup (_ :: _) |- _ => apply NoDup_cons_iff in H as [? H] end. cbn [In] in *.
  repeat match goal with H : ~ (_ \/ _) |- _ => apply Decidable.not_or in H as [? H] end.
  repeat match goal with |- _ /\ _ => split end; unfold arity, inp; cbn [ml_ins]; try exact Logic.I; try (intros [|[|[|j]]] Hj; cbn [nth]; cbn in Hj; clear - Hj; tauto || (exfalso; lia));
    intros C0; cbn [In] in C0; repeat match type of C0 with _ \/ _ => destruct C0 as [C0|C0] end; congruence || contradiction.
Qed.

Theorem C62_mixer h1 h2 C B F JC JF : mixer_ok h1 h2 C B F JC JF ->
  exists Fm : (nat -> arr) -> arr,
    (forall vs c t p, (0 <= c < C)%Z -> (0 <= t < B)%Z -> (0 <= p < F)%Z ->
       Fm vs [c; t; p] = mixed C F JC JF (h_eps h1 * h_eps h1) (vs 1%nat) (vs 2%nat) (vs 3%nat) (vs 4%nat) (vs 5%nat) (vs 6%nat) (vs 7%nat) (vs 8%nat) (fun c t p => vs 0%nat [c; t; p]) c t p) /\
    differentiates_from req (mixer_hid h1 h2) (mixer_ins h1 h2) (mixer_hid h1 h2) (h_y h2) Fm (fun _ => True)
      (pl_forward (mixer_object h1 h2)) (pl_backward (mixer_object h1 h2)).
Proof.
  intros H. pose proof (ordered_mixer _ _ _ _ _ _ _ H) as HO.
  set (Fm := fun (vs : nat -> arr) (i : list Z) => match i with [c; t; p] => mixed C F JC JF (h_eps h1 * h_eps h1) (vs 1%nat) (vs 2%nat) (vs 3%nat) (vs 4%nat) (vs 5%nat) (vs 6%nat) (vs 7%nat) (vs 8%nat) (fun c t p => vs 0%nat [c; t; p]) c t p | _ => 0 end).
  exists Fm. split; [reflexivity|].
  pose proof (mk_1 _ _ _ _ _ _ _ H) as H1. pose proof (mk_2 _ _ _ _ _ _ _ H) as H2. pose proof (mk_x _ _ _ _ _ _ _ H) as Ex. pose proof (mk_nodes _ _ _ _ _ _ _ H) as Hn.
  assert (Hr : Forall reads_inputs (lms (h_layers req h1 ++ h_layers req h2))) by (rewrite map_app; apply Forall_app; split; apply half_reads).
  assert (Sn1 : vshape (h_n h1) = [C; B; F]). { rewrite <- (mk_shape _ _ _ _ _ _ _ H). symmetry. apply (no_same _ _ _ _ _ _ _ _ (ho_norm _ _ H1)). }
  assert (Sy1 : vshape (h_y h1) = [C; B; F]). { rewrite <- (mk_shape _ _ _ _ _ _ _ H). symmetry. apply (ho_same _ _ H1). }
  assert (Sn2 : vshape (h_n h2) = [C; B; F]). { rewrite <- Sy1, <- Ex. symmetry. apply (no_same _ _ _ _ _ _ _ _ (ho_norm _ _ H2)). }
  assert (Sy2 : vshape (h_y h2) = [C; B; F]). { rewrite <- Sy1, <- Ex. symmetry. apply (ho_same _ _ H2). }
  assert (Px : pos [C; B; F]). { rewrite <- Sn1. apply wf_ps, wf_wft, UW. apply (no_y _ _ _ _ _ _ _ _ (ho_norm _ _ H1)). }
  assert (PJ : (0 < JC /\ 0 < JF)%Z).
  { destruct (lo_nodes _ _ _ _ _ _ _ _ _ _ _ _ _ _ (ho_lin1 _ _ H1)) as (_ & _ & [W1 _] & _). destruct (lo_nodes _ _ _ _ _ _ _ _ _ _ _ _ _ _ (ho_lin1 _ _ H2)) as (_ & _ & [W2 _] & _).
    pose proof (lo_w _ _ _ _ _ _ _ _ _ _ _ _ _ _ (ho_lin1 _ _ H1)) as L1. pose proof (lo_w _ _ _ _ _ _ _ _ _ _ _ _ _ _ (ho_lin1 _ _ H2)) as L2.
    destruct (mk_s1 _ _ _ _ _ _ _ H) as (E1 & E2 & E3 & E4), (mk_s2 _ _ _ _ _ _ _ H) as (E5 & E6 & E7 & E8). rewrite E1, E3, E4 in L1. rewrite E5, E7, E8 in L2. cbn [app] in *.
    assert (P1 : pos [JC; C]) by (rewrite <- (proj1 L1); apply wf_ps, wf_wft, UW; assumption). assert (P2 : pos [F; JF]) by (rewrite <- (proj1 L2); apply wf_ps, wf_wft, UW; assumption).
    inversion P1; subst. inversion P2 as [|? ? ? P2']; subst. inversion P2'; subst. split; assumption. }
  assert (Pc : (0 < C /\ 0 < B /\ 0 < F)%Z). { inversion Px as [|? ? P1 P2]; subst. inversion P2 as [|? ? P3 P4]; subst. inversion P4; subst. auto. }
  destruct Pc as (PC & PB & PF). destruct PJ as [PJC PJF].
  apply (seg_differentiates req (mixer_segment req h1 h2)).
  - eapply mixer_good; eauto; apply H.
  - apply H.
  - assumption.
  - intros n. cbn [sg_layers mixer_segment]. cbn. unfold mixer_hid. cbn [In]. split; intros; repeat match goal with H : _ \/ _ |- _ => destruct H as [H|H] end; subst; tauto.
  - unfold mixer_ins, mixer_hid in Hn. cbn [app] in Hn. do 9 (apply NoDup_cons_iff in Hn as [_ Hn]). intros C0.
    repeat (apply NoDup_cons_iff in Hn as [? Hn]). unfold mixer_hid in C0. cbn [In] in *. repeat match type of C0 with _ \/ _ => destruct C0 as [C0|C0] end; [symmetry in C0; tauto ..|exact C0].
  - apply incl_refl.
  - intros ? [].
  - intros n [->|Hh].
    + destruct (lo_nodes _ _ _ _ _ _ _ _ _ _ _ _ _ _ (ho_lin2 _ _ H2)) as (_ & [Uy _] & _). exact Uy.
    + unfold mixer_hid in Hh. cbn [In] in Hh.
      assert (HU : forall h, half_ok req h -> U (Val (h_n h)) /\ U (Val (h_a h)) /\ U (Val (h_b h)) /\ U (Val (h_y h))).
      { intros h Hh'. split; [apply (no_y _ _ _ _ _ _ _ _ (ho_norm _ _ Hh'))|]. split; [apply (ao_x _ _ _ (ho_act _ _ Hh'))|]. split; [apply (ao_y _ _ _ (ho_act _ _ Hh'))|].
        destruct (lo_nodes _ _ _ _ _ _ _ _ _ _ _ _ _ _ (ho_lin2 _ _ Hh')) as (_ & [Uy _] & _). exact Uy. }
      destruct (HU _ H1) as (? & ? & ? & ?), (HU _ H2) as (? & ? & ? & ?). repeat destruct Hh as [<-|Hh]; assumption || destruct Hh.
  - intros e _. apply (dom_fix _ _ _ HO Hr). intros l Hl. cbn in Hl. repeat destruct Hl as [<-|Hl]; try exact Logic.I; try (intros ? _; exact Logic.I). destruct Hl.
  - intros e i Hi. cbn [sg_layers mixer_segment]. set (v := eval (lms (h_layers req h1 ++ h_layers req h2)) e).
    assert (Hfix : Forall (fixes v) (h_layers req h1 ++ h_layers req h2)).
    { rewrite Forall_forall. intros l Hl. apply (eval_fix _ _ e HO Hr). apply in_map. assumption. }
    apply Forall_app in Hfix as [Hf1 Hf2].
    assert (Hleaf : forall n, In n (mixer_ins h1 h2) -> v n = e n). { intros n Hn'. apply eval_other. eapply ordered_fresh; eassumption. }
    rewrite Sy2 in Hi. inversion Hi as [|? c ? r I1 I2]; subst. inversion I2 as [|? t ? r2 I3 I4]; subst. inversion I4 as [|? p ? r3 I5 I6]; subst. inversion I6; subst.
    destruct (mk_s1 _ _ _ _ _ _ _ H) as (E1 & E2 & E3 & E4), (mk_s2 _ _ _ _ _ _ _ H) as (E5 & E6 & E7 & E8). destruct (mk_axis _ _ _ _ _ _ _ H) as [A1 A2].
    pose proof (half_R req C B F PC v h1 (fun c t p => e (h_x h1) [c; t; p]) JC Hf1 E1 E2 E3 E4 PJC Sn1 A1 (no_eps _ _ _ _ _ _ _ _ (ho_norm _ _ H1))) as R1.
    assert (R0 : rep3 C B F (v (h_x h1)) (fun c t p => e (h_x h1) [c; t; p])) by (intros c' t' p' _ _ _; rewrite Hleaf by (left; reflexivity); reflexivity).
    specialize (R1 R0). rewrite <- Ex in R1.
    pose proof (half_L req C B F PF v h2 _ JF Hf2 E5 E6 E7 E8 PJF Sn2 A2 (no_eps _ _ _ _ _ _ _ _ (ho_norm _ _ H2)) R1 c t p I1 I3 I5) as R2.
    rewrite R2. unfold Fm, mixed. rewrite (mk_eps _ _ _ _ _ _ _ H). unfold mixer_ins. cbn [nth].
    rewrite !Hleaf by (unfold mixer_ins; cbn [In]; tauto). reflexivity.
Qed.

(** GAP: the mean over the channels, transposed *)
Theorem C62_gap x y yT c b e bc bb be : gap_ok req x y yT c b e bc bb be ->
  exists F : (nat -> arr) -> arr,
    (forall vs p t, (0 <= p < e)%Z -> (0 <= t < b)%Z -> F vs [p; t] = pooled c (fun c t p => vs 0%nat [c; t; p]) t p) /\
    differentiates_from req [x; yT] [x] [yT] y F (fun _ => True)
      (gap_forward (node req x) (node req y) (node req yT)) (gap_backward (node req x) (node req y) (node req yT)).
Proof.
  intros H. set (F := fun (vs : nat -> arr) (i : list Z) => match i with [p; t] => pooled c (fun c t p => vs 0%nat [c; t; p]) t p | _ => 0 end). exists F. split; [reflexivity|].
  destruct (go_ne _ _ _ _ _ _ _ _ _ _ H) as (N1 & N2 & N3).
  apply (seg_differentiates req (gap_segment req x y yT 0 1 c)).
  - eapply gap_good; exact H.
  - cbn. repeat constructor; cbn; lia.
  - cbn. repeat split; try (intros [|j] Hj; [cbn; tauto|unfold arity in Hj; cbn in Hj; lia]); intuition congruence.
  - intros n. cbn. split; intros; repeat match goal with H : _ \/ _ |- _ => destruct H as [H|H] end; subst; tauto.
  - intros [|[]]; congruence.
  - intros n [<-|[]]. right. left. reflexivity.
  - apply incl_refl.
  - intros n [->|[<-|[]]]; [apply (go_y _ _ _ _ _ _ _ _ _ _ H)|apply (go_yT _ _ _ _ _ _ _ _ _ _ H)].
  - intros v _. cbn. tauto.
  - intros v i Hi. rewrite (proj1 (go_sy _ _ _ _ _ _ _ _ _ _ H)) in Hi. inversion Hi as [|? p ? r I1 I2]; subst. inversion I2 as [|? t ? r2 I3 I4]; subst. inversion I4; subst.
    cbn [sg_layers gap_segment map eval ly_m mean_layer tr_layer]. unfold fire at 1. cbn [ml_out]. destruct (Nat.eq_dec y y); [|congruence]. cbn [ml_F]. unfold args, inp. cbn [ml_ins nth flip].
    unfold fire. cbn [ml_out ml_F]. destruct (Nat.eq_dec yT yT); [|congruence]. unfold args, inp, F, pooled. cbn [ml_ins nth]. unfold Rdiv. rewrite Rmult_comm. reflexivity.
Qed.
(** ... but it does not add to the gradient of x: whatever that held before is lost. *)
Theorem C62_gap_overwrites x y yT c b e bc bb be : gap_ok req x y yT c b e bc bb be ->
  forall ns v G s, knows_state req ns v G s ->
    runs_nd (gap_backward (node req x) (node req y) (node req yT)) s (fun s' =>
      gradient s' x (fun idx => / IZR c * match idx with [_; t; p] => G y [p; t] | _ => 0 end) /\
      forall n, U (Grad n) -> req n = true -> n <> x -> n <> yT -> gradient s' n (G n)).
Proof.
  intros [[Ux Nx] [Uy Ny] [Ut Nt] (Rx & Ry & Rt) (N1 & N2 & N3) [Sx Bx] [St Bt] [Sy By]] ns v G s Hks.
  destruct (Nx Rx) as [Ugx [Tgx Tgx']]. destruct (Ny Ry) as [Ugy [Tgy Tgy']]. destruct (Nt Rt) as [Ugt [Tgt Tgt']].
  assert (Px : pos [c; b; e]) by (rewrite <- Sx; apply wf_ps, wf_wft, UW; assumption).
  assert (Hc : (0 < c)%Z) by (inversion Px; assumption).
  unfold vshape, vbase in Sx, Bx, St, Bt, Sy, By.
  assert (Hm' : slice_match (A (Grad x)) (A (Grad yT)) 0) by (unfold slice_match; rewrite Tgx, Tgx', Tgt, Tgt', Sx, Bx, St, Bt; cbn; repeat split; reflexivity || lia).
  assert (Ht' : transpose_match (A (Grad y)) (A (Grad yT)) 1) by (unfold transpose_match; rewrite Tgy, Tgy', Tgt, Tgt', Sy, By, St, Bt; cbn; repeat split; reflexivity || lia).
  pose proof (state_st req _ _ _ _ Hks) as Hs. set (M := map_of ns v (fun _ => None)) in *.
  unfold gap_backward. cbn [node m_val m_grad]. rewrite Sx. change (zn [c; b; e] 0) with c. rewrite inv_x by assumption.
  eapply (py_grad_always req M G s yT (fun idx => G y (flip idx) - G yT idx)); [assumption| |].
  { apply (h_transpose _ s (Grad y) (Grad yT) 1 (G y) (fun idx => G yT idx + (G y (flip idx) - G yT idx)) Hs Ugy Ugt); [congruence|assumption|cbn; rewrite Ry; reflexivity|].
    intros idx Hi. rewrite Tgy, Sy in Hi. inversion Hi as [|? k ? r H2 H3]; subst. inversion H3 as [|? k2 ? r2 H4 H5]; subst. inversion H5; subst. change (rot 1 [k; k2]) with [k2; k]. cbn [flip]. ring. }
  intros s1 H1. set (G1 := addg yT (fun idx => G y (flip idx) - G yT idx) G) in *.
  assert (E1 : forall idx, G1 yT idx = G y (flip idx)) by (intros idx; unfold G1, addg; destruct (Nat.eq_dec yT yT); [ring|congruence]).
  eapply (py_grad_always req M G1 s1 x (fun idx => / IZR c * G1 yT (tl idx) - G1 x idx)); [assumption| |].
  { apply (h_add_slice (/ IZR c) 0 _ s1 (Grad yT) (Grad x) 0 (G1 yT) (G1 x) (fun idx => G1 x idx + (/ IZR c * G1 yT (tl idx) - G1 x idx)) H1 Ugt Ugx); [congruence|assumption|cbn; rewrite Rt; reflexivity|cbn; rewrite Rx; reflexivity|].
    intros idx Hi. rewrite Tgx, Sx in Hi. inversion Hi as [|? k ? r H2 H3]; subst. change (del 0 (k :: r)) with r. cbn [tl]. ring. }
  intros s2 H2. apply py_nil. set (G2 := addg x (fun idx => / IZR c * G1 yT (tl idx) - G1 x idx) G1) in *.
  assert (HG : forall n, U (Grad n) -> req n = true -> gradient s2 n (G2 n)) by (intros n Hu Hr; apply H2; [assumption|]; cbn [ov]; rewrite Hr; reflexivity).
  split.
  - intros idx Hi. rewrite (HG x Ugx Rx idx Hi). unfold fin. f_equal. unfold G2, addg at 1. destruct (Nat.eq_dec x x); [|congruence]. rewrite E1.
    rewrite Tgx, Sx in Hi. inversion Hi as [|? k ? r J1 J2]; subst. inversion J2 as [|? k2 ? r2 J3 J4]; subst. inversion J4 as [|? k3 ? r3 J5 J6]; subst. inversion J6; subst. cbn [tl flip]. ring.
  - intros n Hu Hr Hx Ht. replace (G n) with (G2 n); [apply HG; assumption|]. apply functional_extensionality. intros idx. unfold G2, addg at 1. destruct (Nat.eq_dec x n); [congruence|]. unfold G1, addg. destruct (Nat.eq_dec yT n); [congruence|]. ring.
Qed.
End Mix.
