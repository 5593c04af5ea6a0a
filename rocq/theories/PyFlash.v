(** * The FlashAttention layer *)
From Coq Require Import Reals Lra FunctionalExtensionality.
From Coquelicot Require Import Coquelicot.
From Verif Require Import Base Spec Geometry Traits TraitsProofs Runtime Ops RealOps TensorSem ElemGeneric OneOut ElemOps Axis AccRuns SliceOps FiberOps FiberGeo SliceGeo RSum AttnSpec PropElem PropSlice PropFiber MatOps MatProofs GemmProofs GemmRuns PropMat SoftmaxOps PairGeo SoftmaxScalar SoftmaxProofs SoftmaxRuns PropSoftmax LossOps LossRuns PropLoss XReals Sequence NdRuns FlashOps FlashGeo XTriples HasRuns TapeMath VjpMath Tape PyLayers PyLinear HasRuns2 PySimple PyNorm HasRuns3 AttMath PyAttn HasFlash.
Local Open Scope R_scope.
Local Close Scope Z_scope.
Local Open Scope R_scope.

Section Layer.
Context {E : env} (req : nat -> bool).
Notation node_ok := (node_ok req).
Notation node := (node req).
Notation st := (st req).
Notation ov := (ov req).

(** What the constructor and generate_simple (flash_attention.py:64-145, 147-403) set up: the
    tensors of an Attention layer, with a mask; plus what the flash operations need and do not
    check: the sequence, the batch and the heads are cut into equal tiles (flash_attention.py:70
    asserts it for the heads), the head is not cut (generate_simple: head_size_tile =
    head_size). *)
Record flash_ok (L : attn) (mt : tensor) (S B : adims) (m : list Z -> bool) : Prop := {
  fo_attn : attn_ok req L S B m;
  fo_mask : an_mask L = Some mt;
  fo_disj : forall i, In i [7; 8; 11; 13; 15; 17]%nat -> disj mt (A (Tmp (an_id L) i));
  fo_head : d_h B = d_h S;
  fo_seq : (d_n B | d_n S)%Z; fo_batch : (d_b B | d_b S)%Z; fo_heads : (d_nh B | d_nh S)%Z
}.
Definition flash_fwd (L : attn) (mt : tensor) : res (list (task XR)) :=
  let t := tm (an_id L) in
  flash_attention_forward (node (an_xq L)) (node (an_xk L)) (node (an_xv L)) (node (an_y L)) (node (an_wq L)) (node (an_wk L)) (node (an_wv L)) (node (an_w L))
    (option_map node (an_bq L)) (option_map node (an_bk L)) (option_map node (an_bv L)) (option_map node (an_bo L))
    (t 0%nat) (t 1%nat) (t 2%nat) (t 3%nat) (t 4%nat) (t 5%nat) (t 6%nat) (A (Tmp (an_id L) 7)) (t 8%nat) (t 9%nat) mt.
Definition flash_bwd (L : attn) (mt : tensor) : res (list (task XR)) :=
  let t := tm (an_id L) in
  flash_attention_backward (node (an_xq L)) (node (an_xk L)) (node (an_xv L)) (node (an_y L)) (node (an_wq L)) (node (an_wk L)) (node (an_wv L)) (node (an_w L))
    (option_map node (an_bq L)) (option_map node (an_bk L)) (option_map node (an_bv L)) (option_map node (an_bo L))
    (t 0%nat) (t 1%nat) (t 2%nat) (t 3%nat) (t 4%nat) (t 5%nat) (t 6%nat) (A (Tmp (an_id L) 7)) (A (Tmp (an_id L) 17)) (t 8%nat) (t 9%nat) mt.
Definition flash_layer (L : attn) (mt : tensor) (S : adims) (m : list Z -> bool) : layer :=
  let q := att_q (d_e S) (an_hasb L) in let k := att_k (d_ek S) (an_hasb L) in let v := att_v (d_ev S) (an_hasb L) in
  let b := att_b (d_e S) (d_ek S) (d_ev S) (d_h S) (d_n S) m (an_hasb L) in {|
  ly_m := ly_m (attn_layer req L S m);
  ly_id := an_id L;
  ly_py := {| pl_forward := flash_fwd L mt; pl_backward := flash_bwd L mt |};
  ly_saved := fun vs M =>
    M (Tmp (an_id L) 1) = Some (fin (q vs)) /\ M (Tmp (an_id L) 3) = Some (fin (k vs)) /\ M (Tmp (an_id L) 5) = Some (fin (v vs)) /\
    (exists f, M (Tmp (an_id L) 7) = Some f /\ reps (d_h S) (d_n S) (d_b S) (d_nh S) m (k vs) (q vs) f) /\
    M (Tmp (an_id L) 9) = Some (fin (fun idx => b vs [zn idx 1; zn idx 2; zn idx 3; zn idx 0])) |}.

Section Ok.
Variables (L : attn) (mt : tensor) (S B : adims) (m : list Z -> bool).
Hypothesis FOK : flash_ok L mt S B m.
Let OK : attn_ok req L S B m := fo_attn _ _ _ _ _ FOK.
Notation id := (an_id L).
Notation e := (d_e S). Notation ek := (d_ek S). Notation ev := (d_ev S). Notation h := (d_h S). Notation n := (d_n S). Notation nb := (d_b S). Notation nh := (d_nh S).
Notation bh := (d_h B). Notation bn := (d_n B). Notation bb := (d_b B). Notation bnh := (d_nh B).


Notation py := (flash_layer L mt S m).
Notation Lq vs := (att_q e (an_hasb L) vs). Notation Lk vs := (att_k ek (an_hasb L) vs). Notation Lv vs := (att_v ev (an_hasb L) vs).
Notation Lb vs := (att_b e ek ev h n m (an_hasb L) vs).
Notation Lw vs := (fun idx => aweight h n m (Lk vs) (Lq vs) (zn idx 0) (zn idx 1) (zn idx 2) (zn idx 3)).
Notation LF vs := (att_F e ek ev h n nh m (an_hasb L) vs).



Lemma fl_even : exists gs gb gn, even h bn bb bnh gs gb gn /\ n = (gs * bn)%Z /\ nb = (gb * bb)%Z /\ nh = (gn * bnh)%Z.
Proof.
  destruct (att_pos _ _ _ _ _ OK) as (Pe & Pek & Pev & Ph & Pn & Pb & Pnh).
  destruct (fo_seq _ _ _ _ _ FOK) as [gs Es]. destruct (fo_batch _ _ _ _ _ FOK) as [gb Eb]. destruct (fo_heads _ _ _ _ _ FOK) as [gn En].
  destruct (ao_q _ _ _ _ _ OK 1%nat ltac:(cbn; tauto)) as (U1 & S1 & B1).
  assert (PB : pos (sq4 B)) by (rewrite <- B1; apply wf_pb, wf_wft, UW; assumption).
  unfold pos, sq4 in PB. rewrite !Forall_cons_iff in PB. destruct PB as (_ & Q1 & Q2 & Q3 & _).
  exists gs, gb, gn. split; [|split; [assumption|split; assumption]]. unfold even. repeat split; try assumption; nia.
Qed.
Lemma fl_seq i gs gb gn : In i [1; 3; 5; 8; 11; 13; 15; 18]%nat -> n = (gs * bn)%Z -> nb = (gb * bb)%Z -> nh = (gn * bnh)%Z -> seq_tensor h bn bb bnh gs gb gn (A (Tmp id i)).
Proof.
  intros Hi E1 E2 E3. destruct (ao_q _ _ _ _ _ OK i Hi) as (U1 & S1 & B1). split; [apply UW; assumption|]. rewrite S1, B1. unfold sq4.
  rewrite <- E1, <- E2, <- E3, (fo_head _ _ _ _ _ FOK). split; reflexivity.
Qed.
Lemma fl_score i gs gb gn : In i [6; 16]%nat -> n = (gs * bn)%Z -> nb = (gb * bb)%Z -> nh = (gn * bnh)%Z -> score_tensor bn bb bnh gs gb gn (A (Tmp id i)).
Proof.
  intros Hi E1 E2 E3. destruct (ao_a _ _ _ _ _ OK i Hi) as (U1 & S1 & B1). split; [apply UW; assumption|]. rewrite S1, B1. unfold sa4.
  rewrite <- E1, <- E2, <- E3. split; reflexivity.
Qed.
Lemma fl_pair gs gb gn : n = (gs * bn)%Z -> nb = (gb * bb)%Z -> nh = (gn * bnh)%Z -> seq_tensor 2 bn bb bnh gs gb gn (A (Tmp id 7)).
Proof.
  intros E1 E2 E3. destruct (ao_ms _ _ _ _ _ OK) as (U1 & S1 & B1). split; [apply UW; assumption|]. rewrite S1, B1. unfold srow.
  rewrite <- E1, <- E2, <- E3. split; reflexivity.
Qed.
Lemma fl_row gs gb gn : n = (gs * bn)%Z -> nb = (gb * bb)%Z -> nh = (gn * bnh)%Z -> row_tensor bn bb bnh gs gb gn (A (Tmp id 17)).
Proof.
  intros E1 E2 E3. destruct (ao_sp _ _ _ _ _ OK) as (U1 & S1 & B1). split; [apply UW; assumption|]. rewrite S1, B1. unfold srow.
  rewrite <- E1, <- E2, <- E3. split; reflexivity.
Qed.
Lemma fl_mask gs : n = (gs * bn)%Z -> mask_tensor bn gs mt.
Proof.
  intros E1. assert (Hm := ao_mask _ _ _ _ _ OK). rewrite (fo_mask _ _ _ _ _ FOK) in Hm. destruct Hm as (W & Sm & Bm & _).
  split; [assumption|]. rewrite Sm, Bm, <- E1. split; reflexivity.
Qed.
Lemma fl_K : forall s, K s -> stored KB s mt /\ forall idx, inb (t_shape mt) idx -> belem s mt idx = m idx.
Proof. assert (Hm := ao_mask _ _ _ _ _ OK). rewrite (fo_mask _ _ _ _ _ FOK) in Hm. apply Hm. Qed.

Lemma flash_fwd_ok : fwd_ok req py.
Proof.
  intros vs M G s Hs _ Hin. apply (att_in req L S m) in Hin as (I0 & I1 & I2 & I3 & I4 & I5 & I6 & I7 & I8 & I9 & I10).
  destruct (att_not_out _ _ _ _ _ OK) as (N0 & N1 & N2 & N3 & N4 & N5 & N6 & Nb).
  destruct (att_pos _ _ _ _ _ OK) as (Pe & Pek & Pev & Ph & Pn & Pb & Pnh).
  assert (Hh : 0 < IZR h) by (apply (IZR_lt 0); assumption). assert (Hsq : 0 < sqrt (IZR h)) by (apply sqrt_lt_R0; assumption).
  cbn [ly_py pl_forward flash_layer attn_layer ly_m ml_out ml_F ly_saved ly_id]. unfold flash_fwd, flash_attention_forward.
  destruct (isn_val _ _ _ _ (ao_y _ _ _ _ _ OK)) as (Uy & Sy & By). destruct (isn_val _ _ _ _ (ao_w _ _ _ _ _ OK)) as (Uw & Sw & Bw).
  assert (T9 := ao_t _ _ _ _ _ OK 9%nat ltac:(cbn; tauto)). destruct T9 as (U9 & S9 & B9).
  assert (T1 := ao_q _ _ _ _ _ OK 1%nat ltac:(cbn; tauto)). assert (T3 := ao_q _ _ _ _ _ OK 3%nat ltac:(cbn; tauto)). assert (T5 := ao_q _ _ _ _ _ OK 5%nat ltac:(cbn; tauto)).
  assert (T8 := ao_q _ _ _ _ _ OK 8%nat ltac:(cbn; tauto)). destruct T8 as (U8 & S8 & B8).
  destruct (ao_a _ _ _ _ _ OK 6%nat ltac:(cbn; tauto)) as (U6 & S6 & B6). destruct (ao_ms _ _ _ _ _ OK) as (U7 & S7 & B7).
  set (M1 := upd (Tmp id 1) (Some (fin (Lq vs))) (upd (Tmp id 0) None M)).
  set (M2 := upd (Tmp id 3) (Some (fin (Lk vs))) (upd (Tmp id 2) None M1)).
  set (M3 := upd (Tmp id 5) (Some (fin (Lv vs))) (upd (Tmp id 4) None M2)).
  eapply (py_cons _ _ _ (st M1 G)).
  { unfold M1, att_q. rewrite <- oval_q.
    eapply (proj_fwd req (an_xq L) (an_wq L) (an_bq L) id 0 1 M G s e h n nb nh (d_e B) bh bn bb bnh); try assumption.
    - apply (ao_xq _ _ _ _ _ OK). - apply (ao_wq _ _ _ _ _ OK). - apply (ao_t _ _ _ _ _ OK). cbn; tauto. - lia.
    - intros b Hb. split; [apply (ao_bq _ _ _ _ _ OK); assumption|auto]. }
  intros s1 H1. eapply (py_cons _ _ _ (st M2 G)).
  { unfold M2, att_k. rewrite <- oval_k.
    eapply (proj_fwd req (an_xk L) (an_wk L) (an_bk L) id 2 3 M1 G s1 ek h n nb nh (d_ek B) bh bn bb bnh); try assumption.
    - apply (ao_xk _ _ _ _ _ OK). - apply (ao_wk _ _ _ _ _ OK). - apply (ao_t _ _ _ _ _ OK). cbn; tauto. - lia.
    - intros b Hb. split; [apply (ao_bk _ _ _ _ _ OK); assumption|]. unfold M1. rewrite !upd_ne by congruence. auto. }
  intros s2 H2. eapply (py_cons _ _ _ (st M3 G)).
  { unfold M3, att_v. rewrite <- oval_v.
    eapply (proj_fwd req (an_xv L) (an_wv L) (an_bv L) id 4 5 M2 G s2 ev h n nb nh (d_ev B) bh bn bb bnh); try assumption.
    - apply (ao_xv _ _ _ _ _ OK). - apply (ao_wv _ _ _ _ _ OK). - apply (ao_t _ _ _ _ _ OK). cbn; tauto. - lia.
    - intros b Hb. split; [apply (ao_bv _ _ _ _ _ OK); assumption|]. unfold M2, M1. rewrite !upd_ne by congruence. auto. }
  intros s3 H3. cbn [tm node m_val].
  change (@o_one XR _) with (Fin 1). change (@o_zero XR _) with (Fin 0).
  set (q := Lq vs) in *. set (k := Lk vs) in *. set (v := Lv vs) in *.
  assert (Q1 : M3 (Tmp id 1) = Some (fin q)) by (unfold M3, M2, M1; rewrite !upd_ne by congruence; apply upd_eq).
  assert (Q3 : M3 (Tmp id 3) = Some (fin k)) by (unfold M3, M2; rewrite !upd_ne by congruence; apply upd_eq).
  assert (Q5 : M3 (Tmp id 5) = Some (fin v)) by (unfold M3; apply upd_eq).
  destruct fl_even as (gs & gb & gn & Hev & En & Eb & Enh).
  assert (Q' := fun i Hi => fl_seq i gs gb gn Hi En Eb Enh).
  assert (T6 := fl_score 6 gs gb gn ltac:(cbn; tauto) En Eb Enh). assert (T7 := fl_pair gs gb gn En Eb Enh). assert (TMk := fl_mask gs En).
  assert (HK := fl_K).
  set (b := Lb vs).
  rewrite pyseq_cons, (pyseq_cons (flash_maxsumexp_async _ _ _ _ _ _)), <- then_assoc.
  eapply nd_then.
  { apply (h_flash_max h bn bb bnh gs gb gn Hev mt m TMk HK (ov G M3) s3 (Tmp id 1) (Tmp id 3) (Tmp id 7) (Tmp id 6) q k H3); try congruence; try assumption.
    - apply T1. - apply T3. - apply Q'; cbn; tauto. - apply Q'; cbn; tauto. - apply (fo_disj _ _ _ _ _ FOK). cbn; tauto. }
  intros s4 _ (f & H4 & Hf). fold (@pyseq XR). apply st_tmp in H4. set (M4 := upd (Tmp id 7) (Some f) M3) in *.
  assert (Hf' := Hf). rewrite <- En, <- Eb, <- Enh in Hf'.
  eapply py_tmp; [apply (h_flash_gemm h bn bb bnh gs gb gn Hev mt m TMk HK (ov G M4) s4 (Tmp id 1) (Tmp id 3) (Tmp id 5) (Tmp id 7) (Tmp id 6) (Tmp id 8) q k v f b H4)|];
    try congruence; try assumption.
  { apply T1. } { apply T3. } { apply T5. } { apply Q'; cbn; tauto. } { apply Q'; cbn; tauto. } { apply Q'; cbn; tauto. } { apply Q'; cbn; tauto. }
  { apply (fo_disj _ _ _ _ _ FOK). cbn; tauto. }
  { cbn [Tape.ov]. unfold M4. rewrite upd_ne by congruence. exact Q1. } { cbn [Tape.ov]. unfold M4. rewrite upd_ne by congruence. exact Q3. }
  { cbn [Tape.ov]. unfold M4. rewrite upd_ne by congruence. exact Q5. } { apply upd_eq. }
  { intros d i x y Hd Hi Hx Hy. rewrite <- En. reflexivity. }
  intros s8 H8. set (bt := fun idx : list Z => b [zn idx 1; zn idx 2; zn idx 3; zn idx 0]).
  eapply py_tmp; [apply (h_transpose _ s8 (Tmp id 8) (Tmp id 9) 3 b bt H8 U8 U9)|].
  { congruence. } { unfold transpose_match. rewrite S8, B8, S9, B9. split; [unfold zlen; cbn; lia|]. split; reflexivity. }
  { apply upd_eq. } { intros idx Hi. rewrite S8 in Hi. apply inb4_inv in Hi as (d & i & x & y & -> & _). reflexivity. }
  intros s9 H9. set (y0 := outp h nh false b (vs 6%nat) (fun _ => 0)).
  match type of H9 with Tape.st _ ?MM _ _ => set (M9 := MM) in * end.
  assert (Hk9 : forall x : nat, M9 (Val x) = M (Val x)) by (intros; unfold M9, M4, M3, M2, M1; rewrite !upd_ne by congruence; reflexivity).
  assert (Hk9' : forall kk i, kk <> id -> M9 (Tmp kk i) = M (Tmp kk i)) by (intros; unfold M9, M4, M3, M2, M1; rewrite !upd_ne by congruence; reflexivity).
  eapply py_val; [apply (h_gemm 1 0 NoTrans NoTrans (ov G M9) s9 (Val (an_w L)) (Tmp id 9) (Val (an_y L)) 2 0 (vs 6%nat) bt (fun _ => 0) y0 [e] [nh; h] [n; nb] [] [d_e B] [bnh; bh] [bn; bb] [])|];
    try assumption; try congruence; try reflexivity; try (left; reflexivity).
  { apply upd_eq. }
  { intros mi ni bi Hm Hn' Hb'. apply inb1_inv in Hm as (o & -> & _). apply inb2_inv in Hn' as (i & x & -> & _). apply inb_nil in Hb' as ->.
    rewrite sum2 by assumption. unfold y0, outp, bt. cbn [app op_dims]. change (zn [o; i; x] 0) with o. change (zn [o; i; x] 1) with i. change (zn [o; i; x] 2) with x.
    rewrite Rmult_0_l, Rplus_0_l, Rplus_0_r, Rmult_1_l. rewrite Rsum_swap. reflexivity. }
  intros s10 H10. set (M10 := upd (Val (an_y L)) (Some (fin y0)) M9) in *.
  assert (Fin_ : forall s' M', st M' G s' -> M' (Val (an_y L)) = Some (fin (LF vs)) -> (forall x, x <> Val (an_y L) -> M' x = M9 x) ->
    exists M', st M' G s' /\ M' (Val (an_y L)) = Some (fin (LF vs)) /\
    (M' (Tmp id 1) = Some (fin q) /\ M' (Tmp id 3) = Some (fin k) /\ M' (Tmp id 5) = Some (fin v) /\ (exists f, M' (Tmp id 7) = Some f /\ reps h n nb nh m k q f) /\ M' (Tmp id 9) = Some (fin bt)) /\
    (forall x, x <> an_y L -> M' (Val x) = M (Val x)) /\ (forall kk i, kk <> id -> M' (Tmp kk i) = M (Tmp kk i))).
  { intros s' M' H' Hy Hx. exists M'. split; [assumption|]. split; [assumption|]. split; [|split].
    - rewrite !Hx by congruence. unfold M9, M4. split; [rewrite !upd_ne by congruence; exact Q1|]. split; [rewrite !upd_ne by congruence; exact Q3|].
      split; [rewrite !upd_ne by congruence; exact Q5|]. split; [exists f; split; [rewrite !(upd_ne _ (Tmp id 9)), !(upd_ne _ (Tmp id 8)) by congruence; apply upd_eq|exact Hf']|apply upd_eq].
    - intros x Hx'. rewrite Hx by congruence. apply Hk9.
    - intros kk i Hk'. rewrite Hx by congruence. apply Hk9'. assumption. }
  destruct (an_bo L) as [bo|] eqn:Ebo; cbn [option_map py_opt node m_val].
  - assert (Hbo := ao_bo _ _ _ _ _ OK bo Ebo). destruct (isn_val _ _ _ _ Hbo) as (Ubo & Sbo & Bbo).
    assert (bo <> an_y L) by (apply Nb; tauto).
    eapply py_val; [apply (h_add_fiber 1 1 _ s10 (Val bo) (Val (an_y L)) 0 0 (vs 10%nat) y0 (LF vs) ltac:(lra) H10 Ubo Uy)|].
    { congruence. } { unfold fiber_match. rewrite Sy, By, Sbo, Bbo. split; [lia|]. split; [unfold zlen; cbn; lia|]. split; reflexivity. }
    { cbn [Tape.ov]. unfold M10. rewrite upd_ne by congruence. rewrite Hk9. apply I10. reflexivity. } { apply upd_eq. }
    { intros idx Hi. rewrite Sy in Hi. apply inb3_inv in Hi as (o & i & x & -> & _). unfold att_F, y0, outp. fold b. change (fib 0 0 [o; i; x]) with [o].
      change (zn [o; i; x] 0) with o. unfold an_bo in Ebo. unfold an_hasb. destruct (an_bias L); [ring|discriminate]. }
    intros s11 H11. apply py_nil. eapply Fin_; [exact H11|apply upd_eq|]. intros x Hx. unfold M10. rewrite !upd_ne by congruence. reflexivity.
  - apply py_skip, py_nil. eapply Fin_; [exact H10| |intros x Hx; unfold M10; rewrite upd_ne by congruence; reflexivity].
    unfold M10. rewrite upd_eq. f_equal. f_equal. unfold att_F, y0. fold b. unfold an_bo in Ebo. unfold an_hasb. destruct (an_bias L); [discriminate|reflexivity].
Qed.

Lemma flash_bwd_ok : bwd_ok req py.
Proof.
  intros vs M G s Hs _ Hin Hsv. apply (att_in req L S m) in Hin as (I0 & I1 & I2 & I3 & I4 & I5 & I6 & I7 & I8 & I9 & I10).
  destruct (att_not_out _ _ _ _ _ OK) as (N0 & N1 & N2 & N3 & N4 & N5 & N6 & Nb).
  destruct (att_pos _ _ _ _ _ OK) as (Pe & Pek & Pev & Ph & Pn & Pb & Pnh).
  assert (Hh : 0 < IZR h) by (apply (IZR_lt 0); assumption). assert (Hsq : 0 < sqrt (IZR h)) by (apply sqrt_lt_R0; assumption).
  cbn [ly_py pl_backward flash_layer attn_layer ly_m ml_out ml_F ly_saved ly_id] in *. destruct Hsv as (Q1 & Q3 & Q5 & (f & Q7 & Hf) & Q9).
  unfold flash_bwd, flash_attention_backward.
  assert (Ry := ao_ry _ _ _ _ _ OK). destruct (isn_grad _ _ _ _ (ao_y _ _ _ _ _ OK) Ry) as (Uy & Sy & By). destruct (isn_val _ _ _ _ (ao_w _ _ _ _ _ OK)) as (Uw & Sw & Bw).
  destruct (ao_t _ _ _ _ _ OK 9%nat ltac:(cbn; tauto)) as (U9 & S9 & B9). destruct (ao_t _ _ _ _ _ OK 19%nat ltac:(cbn; tauto)) as (U19 & S19 & B19).
  destruct (ao_q _ _ _ _ _ OK 1%nat ltac:(cbn; tauto)) as (U1 & S1 & B1). destruct (ao_q _ _ _ _ _ OK 3%nat ltac:(cbn; tauto)) as (U3 & S3 & B3).
  destruct (ao_q _ _ _ _ _ OK 5%nat ltac:(cbn; tauto)) as (U5 & S5 & B5). destruct (ao_q _ _ _ _ _ OK 18%nat ltac:(cbn; tauto)) as (U18 & S18 & B18).
  assert (T11 := ao_q _ _ _ _ _ OK 11%nat ltac:(cbn; tauto)). assert (T13 := ao_q _ _ _ _ _ OK 13%nat ltac:(cbn; tauto)). assert (T15 := ao_q _ _ _ _ _ OK 15%nat ltac:(cbn; tauto)).
  destruct (ao_a _ _ _ _ _ OK 6%nat ltac:(cbn; tauto)) as (U6 & S6 & B6). destruct (ao_a _ _ _ _ _ OK 16%nat ltac:(cbn; tauto)) as (U16 & S16 & B16).
  destruct (ao_sp _ _ _ _ _ OK) as (U17 & S17 & B17).
  cbn [tm node m_val m_grad m_req]. change (10 + 0)%nat with 10%nat. change (10 + 1)%nat with 11%nat. change (10 + 2)%nat with 12%nat. change (10 + 3)%nat with 13%nat. change (10 + 4)%nat with 14%nat. change (10 + 5)%nat with 15%nat. change (10 + 6)%nat with 16%nat. change (10 + 8)%nat with 18%nat. change (10 + 9)%nat with 19%nat.
  change (@minus1 XR _) with (Fin (- (1))). change (@o_one XR _) with (Fin 1). change (@o_zero XR _) with (Fin 0).
  set (q := Lq vs) in *. set (k := Lk vs) in *. set (v := Lv vs) in *. set (b := Lb vs) in *. set (gy := G (an_y L)).
  set (bt := fun idx : list Z => b [zn idx 1; zn idx 2; zn idx 3; zn idx 0]) in *.
  set (gb := outp_db e (vs 6%nat) gy).
  set (Gq := att_g e ek ev h n m (an_hasb L) vs gy).
  (* output bias *)
  set (G1 := addgo (an_bo L) (outp_dbo n nb gy) G).
  assert (K1 : forall l Q, (forall s1, st M G1 s1 -> runs_nd (pyseq l) s1 Q) ->
    runs_nd (pyseq (py_opt (option_map node (an_bo L)) (fun b0 => py_if (m_req b0) (sum_fiber_async (Fin 1) (A (Grad (an_y L))) (Fin 1) (m_grad b0) 0 0 false)) :: l)) s Q).
  { intros l Q HQ. unfold G1 in HQ. destruct (an_bo L) as [bo|] eqn:Ebo; cbn [option_map py_opt addgo node m_req m_grad] in *.
    - assert (Hbo := ao_bo _ _ _ _ _ OK bo Ebo). assert (bo <> an_y L) by (apply Nb; tauto).
      eapply py_grad; [exact Hs| |exact HQ]. intros Rb. destruct (isn_grad _ _ _ _ Hbo Rb) as (Ub & Sb & Bb).
      apply (h_sum_fiber 1 1 (ov G M) s (Grad (an_y L)) (Grad bo) 0 0 gy (G bo)); try assumption.
      + congruence. + unfold fiber_match. rewrite Sy, By, Sb, Bb. split; [lia|]. split; [unfold zlen; cbn; lia|]. split; reflexivity.
      + apply ov_grad; assumption. + apply ov_grad; assumption.
      + intros d Hd. rewrite Sb in Hd. apply inb1_inv in Hd as (o & -> & Ho). unfold sx in Sy. rewrite Sy, fiber_first by assumption. ring.
    - apply py_skip. apply HQ. exact Hs. }
  apply K1. clear K1. intros s1 H1.
  assert (Gy1 : G1 (an_y L) = gy).
  { unfold G1. destruct (an_bo L) as [bo|] eqn:Ebo; cbn [addgo]; [|reflexivity]. apply addg_ne. apply Nb. tauto. }
  (* output weight *)
  set (G2 := addg (an_w L) (outp_dw n nb b gy) G1).
  eapply (py_grad req M G1 s1 (an_w L) (outp_dw n nb b gy)); [exact H1| |].
  { intros Rw. destruct (isn_grad _ _ _ _ (ao_w _ _ _ _ _ OK) Rw) as (Ugw & Sgw & Bgw).
    apply (h_gemm 1 1 NoTrans Trans (ov G1 M) s1 (Grad (an_y L)) (Tmp id 9) (Grad (an_w L)) 2 0 gy bt (G1 (an_w L)) _ [e] [n; nb] [nh; h] [] [d_e B] [bn; bb] [bnh; bh] []);
      try assumption; try congruence; try reflexivity.
    - rewrite ov_grad by assumption. rewrite Gy1. reflexivity. - right. apply ov_grad. assumption.
    - intros mi ni bi Hm Hn' Hb'. apply inb1_inv in Hm as (o & -> & _). apply inb2_inv in Hn' as (y & d & -> & _). apply inb_nil in Hb' as ->.
      rewrite sum2 by assumption. unfold outp_dw, bt. cbn [app op_dims]. change (zn [o; y; d] 0) with o. change (zn [o; y; d] 1) with y. change (zn [o; y; d] 2) with d.
      rewrite !Rmult_1_l. reflexivity. }
  intros s2 H2. fold G2 in H2. assert (Gy2 : G2 (an_y L) = gy) by (unfold G2; rewrite addg_ne; assumption).
  unfold py_if at 1.
  set (gbt := fun idx : list Z => gb [zn idx 1; zn idx 2; zn idx 3; zn idx 0]).
  eapply py_tmp; [apply (h_gemm 1 0 Trans NoTrans (ov G2 M) s2 (Val (an_w L)) (Grad (an_y L)) (Tmp id 19) 1 0 (vs 6%nat) gy (fun _ => 0) gbt [nh; h] [e] [n; nb] [] [bnh; bh] [d_e B] [bn; bb] [])|];
    try assumption; try congruence; try reflexivity; try (left; reflexivity).
  { rewrite ov_grad by assumption. rewrite Gy2. reflexivity. }
  { intros mi ni bi Hm Hn' Hb'. apply inb2_inv in Hm as (y & d & -> & _). apply inb2_inv in Hn' as (i & x & -> & _). apply inb_nil in Hb' as ->.
    rewrite sum1 by assumption. unfold gbt, gb, outp_db. cbn [app op_dims]. change (zn [y; d; i; x] 0) with y. change (zn [y; d; i; x] 1) with d. change (zn [y; d; i; x] 2) with i. change (zn [y; d; i; x] 3) with x.
    change (zn [d; i; x; y] 0) with d. change (zn [d; i; x; y] 1) with i. change (zn [d; i; x; y] 2) with x. change (zn [d; i; x; y] 3) with y.
    rewrite Rmult_0_l, Rplus_0_l, Rmult_1_l. reflexivity. }
  intros s3 H3. unfold py_if at 1.
  eapply py_tmp; [apply (h_transpose _ s3 (Tmp id 19) (Tmp id 18) 1 gbt gb H3 U19 U18)|].
  { congruence. } { unfold transpose_match. rewrite S18, B18, S19, B19. split; [unfold zlen; cbn; lia|]. split; reflexivity. }
  { apply upd_eq. } { intros idx Hi. rewrite S19 in Hi. apply inb4_inv in Hi as (y & d & i & x & -> & _). reflexivity. }
  intros s4 H4. set (M4 := upd (Tmp id 18) (Some (fin gb)) (upd (Tmp id 19) (Some (fin gbt)) M)) in *.
  destruct fl_even as (gs & gb' & gn & Hev & En & Eb & Enh).
  assert (Q' := fun i Hi => fl_seq i gs gb' gn Hi En Eb Enh).
  assert (T6 := fl_score 6 gs gb' gn ltac:(cbn; tauto) En Eb Enh). assert (T16 := fl_score 16 gs gb' gn ltac:(cbn; tauto) En Eb Enh).
  assert (T7 := fl_pair gs gb' gn En Eb Enh). assert (T17 := fl_row gs gb' gn En Eb Enh). assert (TMk := fl_mask gs En).
  assert (HK := fl_K). destruct (ao_ms _ _ _ _ _ OK) as (U7 & _ & _).
  eapply py_tmp; [apply (h_clear _ s4 (Tmp id 17) (fun _ => 0) H4 U17); reflexivity|].
  intros s5 H5. set (M5 := upd (Tmp id 17) (Some (fin (fun _ => 0))) M4) in *.
  set (M12 := upd (Tmp id 11) (Some (fin (Gq 0%nat))) (upd (Tmp id 13) (Some (fin (Gq 1%nat))) (upd (Tmp id 15) (Some (fin (Gq 2%nat))) (upd (Tmp id 17) None M5)))).
  eapply (py_cons _ _ _ (st M12 G2)).
  { eapply nd_weaken; [apply (h_flash_bwd h bn bb bnh gs gb' gn Hev mt m TMk HK (ov G2 M5) s5 (Tmp id 1) (Tmp id 11) (Tmp id 3) (Tmp id 13) (Tmp id 5) (Tmp id 15) (Tmp id 7) (Tmp id 18) (Tmp id 6) (Tmp id 16) (Tmp id 17)
      q k v gb f (Gq 0%nat) (Gq 1%nat) (Gq 2%nat) H5)|]; try assumption.
    - apply T11. - apply T13. - apply T15.
    - repeat (apply NoDup_cons; [cbn [In]; intros C; repeat destruct C as [C|C]; try contradiction; inversion C|]). apply NoDup_nil.
    - apply Q'; cbn; tauto. - apply Q'; cbn; tauto. - apply Q'; cbn; tauto. - apply Q'; cbn; tauto. - apply Q'; cbn; tauto. - apply Q'; cbn; tauto. - apply Q'; cbn; tauto.
    - apply (fo_disj _ _ _ _ _ FOK). cbn; tauto. - apply (fo_disj _ _ _ _ _ FOK). cbn; tauto. - apply (fo_disj _ _ _ _ _ FOK). cbn; tauto. - apply (fo_disj _ _ _ _ _ FOK). cbn; tauto.
    - cbn [Tape.ov]. unfold M5, M4. rewrite !upd_ne by congruence. exact Q1.
    - cbn [Tape.ov]. unfold M5, M4. rewrite !upd_ne by congruence. exact Q3.
    - cbn [Tape.ov]. unfold M5, M4. rewrite !upd_ne by congruence. exact Q5.
    - cbn [Tape.ov]. unfold M5, M4. rewrite !(upd_ne _ (Tmp id 17)) by congruence. apply upd_eq.
    - cbn [Tape.ov]. unfold M5, M4. rewrite !upd_ne by congruence. exact Q7.
    - apply upd_eq.
    - rewrite <- En, <- Eb, <- Enh. exact Hf.
    - intros d i x y Hd Hi Hx Hy. rewrite <- En. split; [|split]; reflexivity.
    - intros s' _ H'. eapply has_sub; [exact H'|]. intros [a|a|kk l'] f' _; cbn [Tape.ov].
      + rewrite !upd_ne by congruence. unfold M12, M5. rewrite !upd_ne by congruence. auto.
      + rewrite !upd_ne by congruence. auto.
      + unfold M12, upd. repeat match goal with |- context [gvar_dec ?a ?b] => destruct (gvar_dec a b) end; auto. }
  intros s12 H12.
  (* projections *)
  assert (V12 : forall x : nat, M12 (Val x) = M (Val x)) by (intros; unfold M12, M5, M4; rewrite !upd_ne by congruence; reflexivity).
  assert (R11 : M12 (Tmp id 11) = Some (fin (Gq 0%nat))) by apply upd_eq.
  assert (R13 : M12 (Tmp id 13) = Some (fin (Gq 1%nat))) by (unfold M12; rewrite !(upd_ne _ (Tmp id 11)) by congruence; apply upd_eq).
  assert (R15 : M12 (Tmp id 15) = Some (fin (Gq 2%nat))) by (unfold M12; rewrite !(upd_ne _ (Tmp id 11)), !(upd_ne _ (Tmp id 13)) by congruence; apply upd_eq).
  assert (RT : forall kk i, kk <> id -> M12 (Tmp kk i) = M (Tmp kk i)) by (intros; unfold M12, M5, M4; rewrite !upd_ne by congruence; reflexivity).
  clearbody M12.
  set (M13 := upd (Tmp id 14) None M12).
  set (G3 := addg (an_wv L) (proj_dw n nb (vs 2%nat) (Gq 2%nat)) (addg (an_xv L) (proj_dx h nh (vs 5%nat) (Gq 2%nat)) (addgo (an_bv L) (proj_db n nb (Gq 2%nat)) G2))).
  eapply (py_cons _ _ _ (st M13 G3)).
  { eapply (proj_bwd req (an_xv L) (an_wv L) (an_bv L) id 4 5 M12 G2 s12 ev h n nb nh (d_ev B) bh bn bb bnh); try assumption.
    - apply (ao_xv _ _ _ _ _ OK). - apply (ao_wv _ _ _ _ _ OK). - apply (ao_t _ _ _ _ _ OK). cbn; tauto. - lia. - apply (ao_bv _ _ _ _ _ OK).
    - rewrite V12. assumption. - rewrite V12. assumption. }
  intros s13 H13. set (M14 := upd (Tmp id 12) None M13).
  set (G4 := addg (an_wk L) (proj_dw n nb (vs 1%nat) (Gq 1%nat)) (addg (an_xk L) (proj_dx h nh (vs 4%nat) (Gq 1%nat)) (addgo (an_bk L) (proj_db n nb (Gq 1%nat)) G3))).
  eapply (py_cons _ _ _ (st M14 G4)).
  { eapply (proj_bwd req (an_xk L) (an_wk L) (an_bk L) id 2 3 M13 G3 s13 ek h n nb nh (d_ek B) bh bn bb bnh); try assumption.
    - apply (ao_xk _ _ _ _ _ OK). - apply (ao_wk _ _ _ _ _ OK). - apply (ao_t _ _ _ _ _ OK). cbn; tauto. - lia. - apply (ao_bk _ _ _ _ _ OK).
    - unfold M13. rewrite upd_ne by congruence. rewrite V12. assumption. - unfold M13. rewrite upd_ne by congruence. rewrite V12. assumption.
    - change (10 + 3)%nat with 13%nat. unfold M13. rewrite !upd_ne by congruence. assumption. }
  intros s14 H14. set (M15 := upd (Tmp id 10) None M14).
  set (G5 := addg (an_wq L) (proj_dw n nb (vs 0%nat) (Gq 0%nat)) (addg (an_xq L) (proj_dx h nh (vs 3%nat) (Gq 0%nat)) (addgo (an_bq L) (proj_db n nb (Gq 0%nat)) G4))).
  eapply (py_cons _ _ _ (st M15 G5)).
  { eapply (proj_bwd req (an_xq L) (an_wq L) (an_bq L) id 0 1 M14 G4 s14 e h n nb nh (d_e B) bh bn bb bnh); try assumption.
    - apply (ao_xq _ _ _ _ _ OK). - apply (ao_wq _ _ _ _ _ OK). - apply (ao_t _ _ _ _ _ OK). cbn; tauto. - lia. - apply (ao_bq _ _ _ _ _ OK).
    - unfold M14, M13. rewrite !upd_ne by congruence. rewrite V12. assumption. - unfold M14, M13. rewrite !upd_ne by congruence. rewrite V12. assumption.
    - change (10 + 1)%nat with 11%nat. unfold M14, M13. rewrite !upd_ne by congruence. assumption. }
  intros s15 H15. apply py_nil. exists M15, G5. split; [exact H15|]. split; [|split].
  - intros x idx Hx. unfold acc, contrib, arity, inp. cbn [ml_ins ml_dl ml_out]. fold gy. unfold G5, G4, G3, G2, G1.
    unfold an_ins, an_bq, an_bk, an_bv, an_bo. destruct (an_bias L) as [[[[bq bk] bv] bo]|]; cbn [option_map fst snd addgo app List.length].
    + unfold Nsum. cbn [seq nth]. rewrite !Rsuml_cons, Rsuml_nil. unfold addg. cbn [att_dl]. fold Gq b. ring.
    + unfold Nsum. cbn [seq nth]. rewrite !Rsuml_cons, Rsuml_nil. unfold addg. cbn [att_dl]. fold Gq b. ring.
  - intros x. unfold M15, M14, M13. rewrite !upd_ne by congruence. apply V12.
  - intros kk i Hk. unfold M15, M14, M13. rewrite !upd_ne by congruence. apply RT. assumption.
Qed.


Lemma flash_layer_ok : layer_ok req py.
Proof.
  split; [|split; [exact flash_fwd_ok|exact flash_bwd_ok]].
  intros vs M M' HM H. cbn [ly_id flash_layer ly_saved] in *. rewrite !HM. exact H.
Qed.
Lemma flash_vjp : vjp vshape (ly_m py).
Proof. exact (attn_vjp _ _ _ _ _ OK). Qed.
End Ok.
End Layer.
