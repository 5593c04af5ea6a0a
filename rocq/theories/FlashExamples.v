(** * Fused attention: cases meeting the hypotheses of C42 and C43; C44 no argument is checked *)
From Coq Require Import Reals Lra Lia.
From Coquelicot Require Import Coquelicot.
From Verif Require Import Base Spec Geometry Traits TraitsProofs Runtime Ops TensorSem ElemGeneric OneOut
  KernelsElem ElemOps Axis RSum Concrete Sequence XReals PropSoftmax FlashOps FlashGeo AttnSpec PropFlash Binary32 Calls.
Local Open Scope R_scope.

(** head size 2, sequence of 4 in two tiles of 2, batch of 2 in two tiles of 1, 2 heads in one tile *)
Definition fx_t (n : Z) : tensor := std_tensor [2; 4; 2; 2]%Z [2; 2; 1; 2]%Z n.
Definition fx_mask := std_tensor [4; 4]%Z [2; 2]%Z 400%Z.
Definition fx_ms := fx_t 500.
Definition fx_tmp := std_tensor [4; 4; 2; 2]%Z [2; 2; 1; 2]%Z 600%Z.
Definition fx_grad := std_tensor [4; 4; 2; 2]%Z [2; 2; 1; 2]%Z 700%Z.
Definition fx_sp := std_tensor [4; 2; 2]%Z [2; 1; 2]%Z 800%Z.
(** query 3 sees no key, the others see the keys up to themselves *)
Definition fx_m (i : list Z) : bool := ((zn i 0 <=? zn i 1) && negb (zn i 1 =? 3))%Z.
Definition fx_v (c : Z) (i : list Z) : R := IZR (c + zn i 0 + 2 * zn i 1 + 3 * zn i 2 - zn i 3).
Definition fx_s : store XR :=
  putb fx_mask fx_m (put (fx_t 0) (fun i => Fin (fx_v 0 i)) (put (fx_t 100) (fun i => Fin (fx_v 1 i)) (put (fx_t 200) (fun i => Fin (fx_v 2 i))
   (put (fx_t 300) (fun i => Fin (fx_v 3 i)) (put fx_ms (fun _ => NaN) (put fx_tmp (fun _ => NaN) (put fx_grad (fun _ => NaN)
   (put fx_sp (fun _ => NaN) (put (fx_t 900) (fun _ => NaN) (put (fx_t 1000) (fun _ => NaN) (put (fx_t 1100) (fun _ => NaN) (fun _ => BF [])))))))))))).
Ltac fx_dj := apply std_disj; vm_compute; (right; discriminate) || (left; discriminate).
Ltac fx_stored := unfold fx_s; repeat (apply put_stored_other; [apply wf_wft; std_wf_tac|fx_dj|]);
  ((apply put_stored || apply putb_stored); apply wf_wft; std_wf_tac).
Lemma put_skip (t t' : tensor) (c : list Z -> XR) (s : store XR) idx : wft t' -> disj t' t -> inb (t_shape t') idx -> elem (put t c s) t' idx = elem s t' idx.
Proof. apply put_elem_other. Qed.
Lemma putb_skip (t t' : tensor) (c : list Z -> bool) (s : store XR) idx : wft t' -> disj t' t -> inb (t_shape t') idx -> elem (putb t c s) t' idx = elem s t' idx.
Proof. apply put_elem_other. Qed.
Ltac fx_holds := let i := fresh in let H := fresh in intros i H; unfold fx_s;
  repeat (first [rewrite put_elem; [reflexivity|solve [apply wf_wft; std_wf_tac]|exact H]
    |rewrite putb_skip; [|solve [apply wf_wft; std_wf_tac]|solve [fx_dj]|exact H]
    |rewrite put_skip; [|solve [apply wf_wft; std_wf_tac]|solve [fx_dj]|exact H]]).

Lemma fx_seq c : seq_tensor 2 2 1 2 2 2 1 (fx_t c).
Proof. split; [std_wf_tac|split; reflexivity]. Qed.
Lemma fx_even : even 2 2 1 2 2 2 1. Proof. unfold even. lia. Qed.
Lemma fx_hyps :
  mask_tensor 2 2 fx_mask /\ score_tensor 2 1 2 2 2 1 fx_tmp /\ score_tensor 2 1 2 2 2 1 fx_grad /\ row_tensor 2 1 2 2 2 1 fx_sp /\
  stored KB fx_s fx_mask /\ (forall X, In X [fx_t 0; fx_t 100; fx_t 200; fx_t 300; fx_ms; fx_tmp; fx_grad; fx_sp; fx_t 900; fx_t 1000; fx_t 1100] -> stored KF fx_s X) /\
  holds fx_s (fx_t 0) (fx_v 0) /\ holds fx_s (fx_t 100) (fx_v 1) /\ holds fx_s (fx_t 200) (fx_v 2) /\ holds fx_s (fx_t 300) (fx_v 3).
Proof.
  split; [split; [std_wf_tac|split; reflexivity]|]. split; [split; [std_wf_tac|split; reflexivity]|]. split; [split; [std_wf_tac|split; reflexivity]|].
  split; [split; [std_wf_tac|split; reflexivity]|]. split; [fx_stored|].
  split; [intros X HX; repeat (destruct HX as [<-|HX]; [unfold fx_t, fx_ms; fx_stored|]); destruct HX|].
  split; [unfold fx_t; fx_holds|]. split; [unfold fx_t; fx_holds|]. split; [unfold fx_t; fx_holds|]. unfold fx_t; fx_holds.
Qed.
Lemma fx_mask_val k q : (0 <= k < 4)%Z -> (0 <= q < 4)%Z -> belem fx_s fx_mask [k; q] = fx_m [k; q].
Proof. intros. unfold fx_s. apply putb_belem; [apply wf_wft; std_wf_tac|repeat constructor; lia]. Qed.

Ltac fx_d := unfold fx_t, fx_ms, fx_mask, fx_tmp, fx_sp; fx_dj.
Theorem C42_example : runs (then_ (then_ (clear_async fx_ms) (flash_maxsumexp_async (fx_t 0) (fx_t 100) fx_mask fx_ms fx_tmp false))
    (flash_softmax_gemm_async (fx_t 0) (fx_t 100) (fx_t 200) fx_mask fx_ms (fx_t 900) fx_tmp false)) fx_s (fun s' =>
  forall d x y, (0 <= d < 2)%Z -> (0 <= x < 2)%Z -> (0 <= y < 2)%Z ->
    (** the first query sees itself only; the last sees nothing *)
    elem s' (fx_t 900) [d; 0; x; y]%Z = Fin (fx_v 2 [d; 0; x; y]%Z) /\ elem s' (fx_t 900) [d; 3; x; y]%Z = Fin 0).
Proof.
  destruct fx_hyps as (A1 & A2 & A3 & A4 & A5 & A6 & B1 & B2 & B3 & B4).
  eapply runs_weaken; [apply (C42_flash_attention 2 2 1 2 2 2 1 fx_even) with (qv := fx_v 0) (kv := fx_v 1) (vv := fx_v 2);
    first [assumption|apply fx_seq|fx_d|apply A6; cbn [In]; tauto]|].
  intros s' _ [H _] d x y Hd Hx Hy. rewrite !H by lia. split.
  - f_equal. unfold attention. change (zrange (2 * 2)) with [0; 1; 2; 3]%Z. unfold Rsum. change (zrange (2 * 2)) with [0; 1; 2; 3]%Z.
    unfold Rsuml. cbn [fold_right]. unfold aweight, adenom, Rsum. change (zrange (2 * 2)) with [0; 1; 2; 3]%Z.
    rewrite !fx_mask_val by lia. unfold Rsuml. cbn [fold_right]. rewrite !fx_mask_val by lia.
    change (fx_m [0; 0]%Z) with true. change (fx_m [1; 0]%Z) with false. change (fx_m [2; 0]%Z) with false. change (fx_m [3; 0]%Z) with false.
    cbv iota. set (a := ascore _ _ _ _ _ _ _). pose proof (exp_pos a). field. lra.
  - f_equal. apply Rsuml_0. intros j Hj. apply zrange_In in Hj. unfold aweight. rewrite fx_mask_val by lia.
    replace (fx_m [j; 3]%Z) with false; [ring|]. unfold fx_m. cbn. symmetry. apply andb_false_r.
Qed.
Theorem C43_example : runs (then_ (then_ (clear_async fx_ms) (flash_maxsumexp_async (fx_t 0) (fx_t 100) fx_mask fx_ms fx_tmp false))
    (then_ (clear_async fx_sp) (flash_softmax_gemm_backward_async (fx_t 0) (fx_t 900) (fx_t 100) (fx_t 1000) (fx_t 200) (fx_t 1100)
       fx_mask fx_ms (fx_t 300) fx_tmp fx_grad fx_sp false))) fx_s (fun s' =>
  forall d i x y, (0 <= d < 2)%Z -> (0 <= i < 4)%Z -> (0 <= x < 2)%Z -> (0 <= y < 2)%Z ->
    exists g, elem s' (fx_t 900) [d; i; x; y] = Fin g /\
      is_derive (fun t => aloss 2 4 2 2 (belem fx_s fx_mask) (fx_v 1) (upd (fx_v 0) [d; i; x; y] t) (fx_v 2) (fx_v 3)) (fx_v 0 [d; i; x; y]) g).
Proof.
  destruct fx_hyps as (A1 & A2 & A3 & A4 & A5 & A6 & B1 & B2 & B3 & B4).
  eapply runs_weaken; [apply (C43_flash_backward 2 2 1 2 2 2 1 fx_even) with (qv := fx_v 0) (kv := fx_v 1) (vv := fx_v 2) (gv := fx_v 3);
    first [assumption|apply fx_seq|fx_d|idtac]|].
  - intros X HX. repeat (destruct HX as [<-|HX]; [split; [fx_d|split; [fx_d|split; [fx_d|split; [fx_d|fx_d]]]]|]). destruct HX.
  - intros X HX. repeat (destruct HX as [<-|HX]; [split; fx_d|]). destruct HX.
  - intros X HX. apply A6. cbn [In] in *. tauto.
  - intros s' _ [H _] d i x y Hd Hi Hx Hy. exact (proj1 (H d i x y Hd Hi Hx Hy)).
Qed.

(** ** C44: the sizes are not checked *)
Lemma not_runs_seq {T} (r : res (list (task T))) ts s P : r = Ok ts -> sequential ts s = UB -> ~ runs r s P.
Proof.
  intros -> E (ts' & [= <-] & _ & _ & Ha). destruct (always_sequential _ _ _ Ha) as (s' & E' & _). congruence.
Qed.
(** one head, one batch entry; sequence of 3 in tiles of 2 and 1 *)
Definition fy_t (n : Z) : tensor := std_tensor [1; 3; 1; 1]%Z [1; 2; 1; 1]%Z n.
Definition fy_ms : tensor := std_tensor [2; 3; 1; 1]%Z [2; 2; 1; 1]%Z 40%Z.
Definition fy_mask : tensor := std_tensor [3; 3]%Z [2; 2]%Z 50%Z.
Definition fy_tmp : tensor := std_tensor [3; 3; 1; 1]%Z [2; 2; 1; 1]%Z 60%Z.
(** head size 2 cut into tiles of 1 *)
Definition fz_t (n : Z) : tensor := std_tensor [2; 2; 1; 1]%Z [1; 2; 1; 1]%Z n.
Definition fz_ms : tensor := std_tensor [2; 2; 1; 1]%Z [2; 2; 1; 1]%Z 40%Z.
Definition fz_mask : tensor := std_tensor [2; 2]%Z [2; 2]%Z 50%Z.
Definition fz_tmp : tensor := std_tensor [2; 2; 1; 1]%Z [2; 2; 1; 1]%Z 60%Z.
Definition f_store (Q K mask ms tmp : tensor) : store f32 :=
  putb mask (fun _ => true) (put Q (fun _ => o_one) (put K (fun _ => o_one) (put ms (fun _ => o_zero) (put tmp (fun _ => o_zero) (fun _ => BF []))))).
Definition unsafe_max (Q K mask ms tmp : tensor) : Prop :=
  (wf_tensor Q /\ wf_tensor K /\ wf_tensor mask /\ wf_tensor ms /\ wf_tensor tmp) /\
  exists s : store f32, (stored KF s Q /\ stored KF s K /\ stored KB s mask /\ stored KF s ms /\ stored KF s tmp) /\
    (exists ts, flash_maxsumexp_async Q K mask ms tmp false = Ok ts) /\
    forall P, ~ runs (flash_maxsumexp_async Q K mask ms tmp false) s P.
Theorem C44_flash_unchecked :
  (** an uneven sequence *)
  unsafe_max (fy_t 0) (fy_t 10) fy_mask fy_ms fy_tmp /\
  (** a head size cut into tiles *)
  unsafe_max (fz_t 0) (fz_t 10) fz_mask fz_ms fz_tmp.
Proof.
  assert (G : forall Q K mask ms tmp ts, wf_tensor Q /\ wf_tensor K /\ wf_tensor mask /\ wf_tensor ms /\ wf_tensor tmp ->
    stored KF (f_store Q K mask ms tmp) Q /\ stored KF (f_store Q K mask ms tmp) K /\ stored KB (f_store Q K mask ms tmp) mask /\
    stored KF (f_store Q K mask ms tmp) ms /\ stored KF (f_store Q K mask ms tmp) tmp ->
    flash_maxsumexp_async Q K mask ms tmp false = Ok ts -> sequential ts (f_store Q K mask ms tmp) = UB -> unsafe_max Q K mask ms tmp).
  { intros Q K mask ms tmp ts W S E U. split; [assumption|]. exists (f_store Q K mask ms tmp). split; [assumption|].
    split; [exists ts; assumption|]. intros P. eapply not_runs_seq; eassumption. }
  split.
  - eapply G.
    + split; [std_wf_tac|split; [std_wf_tac|split; [std_wf_tac|split; std_wf_tac]]].
    + unfold fy_t, fy_ms, fy_mask, fy_tmp, f_store.
      split; [|split; [|split; [|split]]]; repeat (apply put_stored_other; [apply wf_wft; std_wf_tac|fx_dj|]);
      (apply put_stored || apply putb_stored); apply wf_wft; std_wf_tac.
    + reflexivity.
    + vm_compute. reflexivity.
  - eapply G.
    + split; [std_wf_tac|split; [std_wf_tac|split; [std_wf_tac|split; std_wf_tac]]].
    + unfold fz_t, fz_ms, fz_mask, fz_tmp, f_store.
      split; [|split; [|split; [|split]]]; repeat (apply put_stored_other; [apply wf_wft; std_wf_tac|fx_dj|]);
      (apply put_stored || apply putb_stored); apply wf_wft; std_wf_tac.
    + reflexivity.
    + vm_compute. reflexivity.
Qed.
