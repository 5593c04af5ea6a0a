(** * Reduction mode: concrete executions *)
From Coq Require Import Reals Lra Lia Permutation.
From Verif Require Import Base Spec Geometry Traits TraitsProofs Runtime Ops TensorSem ElemGeneric OneOut
  KernelsElem ElemOps Axis AccRuns Loops SliceOps SliceGeo SliceProofs SliceReduce RealOps RSum Concrete
  Sequence Serial KeepRuns PropElem PropElemR PropSlice Redux ReduxRuns PropRedux Binary32.
Local Open Scope Z_scope.

(** ** The theorems apply: the 5x3 tensor of PropSlice.v *)
Theorem C35_example : redux_add (sum_slice_async 2%R ex_src 1%R ex_dst 0 true) ex_s (fun s' => elem s' ex_dst [2] = (1 * 2 + 2 * 110)%R).
Proof.
  destruct ex_slice_hyps as (HA & HB & Hm & Hd & S1 & S2).
  eapply redux_weaken; [apply C35_sum_slice; assumption|].
  intros s' [H1 _]. rewrite H1 by (repeat constructor; lia).
  assert (HA' := wf_wft _ HA). assert (HB' := wf_wft _ HB).
  assert (D : disj ex_dst ex_src) by (intros h X Y; apply (Hd h); assumption).
  assert (E1 : elem ex_s ex_dst [2%Z] = 2%R).
  { unfold ex_s, put at 1. rewrite put_elem_other; [|assumption|assumption|repeat constructor; lia].
    rewrite put_elem; [reflexivity|assumption|repeat constructor; lia]. }
  rewrite E1. f_equal. f_equal.
  assert (E2 : forall k, (0 <= k < 5)%Z -> elem ex_s ex_src (ins 0 k [2%Z]) = IZR (k + 20)).
  { intros k Hk. unfold ex_s. rewrite put_elem; [reflexivity|assumption|]. constructor; [assumption|repeat constructor; lia]. }
  change (zn (t_shape ex_src) 0) with 5%Z.
  rewrite (Rsum_ext 5 _ (fun k => IZR (k + 20))) by assumption.
  unfold Rsum, Rsuml. change (zrange 5) with [0%Z; 1%Z; 2%Z; 3%Z; 4%Z]. cbn [fold_right].
  rewrite !plus_IZR. lra.
Qed.

(** ** In binary32 the grouping shows: 2^24 + 1 + 1 *)
Definition rx_src := std_tensor [3; 1] [1; 1] 0.
Definition rx_dst := std_tensor [1] [1] 100.
Definition rx_s : store f32 := put rx_src (fun i => if zn i 0 =? 0 then o_ofZ 16777216 else o_one) (put rx_dst (fun _ => o_zero) (fun _ => BF [])).
Definition rx_t (j : Z) : task f32 := sum_slice_submit 1 1 1 o_one (th rx_src j) o_one (th rx_dst 0) true.

Definition got {T} (r : res (store T)) (s : store T) : store T := match r with Ok s' => s' | _ => s end.
Lemma got_ok {T} (r : res (store T)) s : match r with Ok _ => true | _ => false end = true -> r = Ok (got r s).
Proof. destruct r; [reflexivity|discriminate..]. Qed.

Definition rx_run (j : Z) (s hv : store f32) : store f32 := got (exec_task (rx_t j) s hv) s.
Lemma rx_start j pv : may_start [] (rx_t j) pv <-> (forall h m, In (h, m) (t_acc (rx_t j)) -> m <> MREDUX -> m <> MSCRATCH -> ~ In h (map fst pv)).
Proof. unfold may_start. split; [tauto|]. intros H. split; [intros t []|assumption]. Qed.

Theorem C35_binary32_refuted : exists (src dst : tensor) (s : store f32) ts s1 s2,
  wf_tensor src /\ wf_tensor dst /\ slice_match src dst 0 /\ disj src dst /\ stored KF s src /\ stored KF s dst /\
  sum_slice_async o_one src o_one dst 0 true = Ok ts /\
  rsteps clear_cpu accumulate_cpu (ts, s, []) ([], s1, []) /\ rsteps clear_cpu accumulate_cpu (ts, s, []) ([], s2, []) /\
  elem s1 dst [0] <> elem s2 dst [0].
Proof.
  assert (W1 : wf_tensor rx_src) by std_wf_tac. assert (W2 : wf_tensor rx_dst) by std_wf_tac.
  assert (D : disj rx_dst rx_src) by (apply std_disj; vm_compute; right; discriminate).
  set (a := rx_run 0 rx_s rx_s). set (m1 := rx_run 1 a a). set (s1 := rx_run 2 m1 m1). set (h := th rx_dst 0). set (z := BF [o_zero] : buf f32).
  set (b1 := rx_run 1 (upd_store a h z) a). set (a1 := upd_store b1 h (a h)).
  set (b2 := rx_run 2 (upd_store a1 h (b1 h)) a1). set (a2 := upd_store b2 h (a1 h)).
  exists rx_src, rx_dst, rx_s, [rx_t 0; rx_t 1; rx_t 2], s1.
  assert (Hx : exists x, accumulate_cpu [a2 h; b2 h] = Ok x /\ x = [BF [o_ofZ 16777218]; BF [o_ofZ 2]]) by (eexists; split; [|reflexivity]; vm_compute; reflexivity).
  destruct Hx as (x & Hx & Ex). subst x.
  exists (upd_store a2 h (BF [o_ofZ 16777218])).
  split; [assumption|]. split; [assumption|]. split; [split; [vm_compute; split; [discriminate|reflexivity]|split; reflexivity]|].
  split; [intros k X Y; apply (D k); assumption|]. split; [apply put_stored; apply wf_wft; assumption|].
  split; [apply put_stored_other; [apply wf_wft; assumption|assumption|]; apply put_stored; apply wf_wft; assumption|].
  split.
  { rewrite sum_slice_submits; [reflexivity|apply wf_wft; assumption|apply wf_wft; assumption|split; [vm_compute; split; [discriminate|reflexivity]|split; reflexivity]]. }
  split; [|split].
  - eapply rsteps_cons; [apply (rs_main _ _ [] (rx_t 0) [rx_t 1; rx_t 2]) with (hv := rx_s) (s' := a)|].
    + apply rx_start. intros k m _ _ _ [].
    + apply typed_refl.
    + apply got_ok. vm_compute. reflexivity.
    + eapply rsteps_cons; [apply (rs_main _ _ [] (rx_t 1) [rx_t 2]) with (hv := a) (s' := m1)|].
      * apply rx_start. intros k m _ _ _ [].
      * apply typed_refl.
      * apply got_ok. vm_compute. reflexivity.
      * eapply rsteps_cons; [apply (rs_main _ _ [] (rx_t 2) []) with (hv := m1) (s' := s1)|].
        -- apply rx_start. intros k m _ _ _ [].
        -- apply typed_refl.
        -- apply got_ok. vm_compute. reflexivity.
        -- apply rsteps_refl.
  - eapply rsteps_cons; [apply (rs_main _ _ [] (rx_t 0) [rx_t 1; rx_t 2]) with (hv := rx_s) (s' := a)|].
    + apply rx_start. intros k m _ _ _ [].
    + apply typed_refl.
    + apply got_ok. vm_compute. reflexivity.
    + eapply rsteps_cons; [apply (rs_new _ _ [] (rx_t 1) [rx_t 2] a) with (hv := a) (h := h) (junk := z) (b := z) (s' := b1)|].
      * apply rx_start. intros k m _ _ _ [].
      * apply typed_refl.
      * right. left. reflexivity.
      * reflexivity.
      * reflexivity.
      * apply got_ok. vm_compute. reflexivity.
      * eapply rsteps_cons; [apply (rs_copy _ _ [] (rx_t 2) [] a1) with (hv := a1) (h := h) (b := b1 h) (rest := []) (s' := b2)|].
        -- apply rx_start. intros k m Hin Hm _ [Q|[]]. cbn [fst] in Q. subst k. destruct Hin as [Q|[Q|[]]]; [vm_compute in Q; discriminate Q|apply Hm; inversion Q; reflexivity].
        -- apply typed_refl.
        -- right. left. reflexivity.
        -- apply Permutation_refl.
        -- apply got_ok. vm_compute. reflexivity.
        -- eapply rsteps_cons; [eapply (rs_flush _ _ [] a2) with (h := h) (b := b2 h) (rest := []); [apply Permutation_refl|exact Hx]|].
           apply rsteps_refl.
  - vm_compute. discriminate.
Qed.
