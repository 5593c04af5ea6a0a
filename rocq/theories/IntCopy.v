(** * Copying a tensor of any element type *)
From Verif Require Import Base Spec Geometry Traits TraitsProofs Runtime Ops RealOps TensorSem ElemGeneric OneOut ElemOps ElemProofs PropElem EmbedRuns CrossEntropy.

Section C.
Context {T : Type} {O : Ops T}.

Lemma memcpy_full {X} (a d : list X) : zlen a = zlen d -> memcpy a d = Ok a.
Proof.
  intros H. unfold memcpy. destruct (Z.leb_spec (zlen a) (zlen d)); [|lia]. rewrite skipn_all2 by (unfold zlen in *; lia). rewrite app_nil_r. reflexivity.
Qed.
Lemma copy_cpu_same (a d : buf T) : ty a = ty d -> copy_cpu [a; d] = Ok [a; a].
Proof. destruct a, d; cbn [ty copy_cpu]; intros E; inversion E; rewrite memcpy_full by assumption; reflexivity. Qed.

(** src/tensor/copy.cc:31-60 for fp32, fp64 and int64 tensors: afterwards the tiles of [B] hold
    what those of [A] held, and nothing else has changed. *)
Theorem copy_runs k (A B : tensor) (s : store T) : wft A -> wft B -> stored k s A -> stored k s B -> disj A B -> same_tiling A B ->
  runs (copy_async A B) s (fun s' => (forall i, 0 <= i < ntiles B -> s' (th B i) = s (th A i)) /\ frame [B] s s').
Proof.
  intros HA HB SA SB Hd [ES EB].
  assert (HN : forall i, 0 <= i < ntiles B -> 0 <= i < ntiles A) by (intros i Hi; rewrite (ntiles_ext A B) by assumption; assumption).
  set (ws := map (fun i => mkW (map (fun x => (x, MR)) [th A i] ++ [(th B i, MW)]) (copy_cpu (T := T)) (th B i) (fun st => st (th A i))) (zrange (ntiles B))).
  eapply runs_weaken; [apply (one_runs_unique s ws)|].
  - unfold copy_async. rewrite check_same_ok by assumption. rewrite t_ntiles_eq by assumption. rewrite (ntiles_ext A B) by assumption.
    unfold ws. rewrite map_map. rewrite (for_tasks _ _ (fun i => copy_submit (th A i) (th B i))).
    + reflexivity.
    + intros i acc Hi. rewrite get_tile_handle_ok by auto. bnd. rewrite get_tile_handle_ok by assumption. bnd. reflexivity.
  - intros w Hw. apply in_map_iff in Hw as (i & <- & Hi). apply zrange_In in Hi. apply w_ok_last.
    + auto.
    + intros [E|[]]. revert E. apply th_neq; auto.
    + intros s1 s2 H _. apply H. left. reflexivity.
    + intros st Ht. rewrite (Ht (th A i)), SA, SB, (tsz_ext A B) by auto. reflexivity.
    + intros st b Ht Hb _. cbn [map app]. apply copy_cpu_same. rewrite Hb, (Ht (th A i)), SA, SB, (tsz_ext A B) by auto. reflexivity.
  - intros w w' m Hw Hw' Hin Hm. apply in_map_iff in Hw as (i & <- & Hi), Hw' as (j & <- & Hj). apply zrange_In in Hi, Hj. cbn [w_h w_acc map app] in *.
    destruct Hin as [E|[E|[]]]; inversion E as [[E1 E2]]; [|reflexivity]. exfalso. revert E1. apply th_neq; auto.
  - unfold ws. rewrite map_map. cbn [w_h]. apply NoDup_map_inj; [|apply NoDup_zrange]. intros i j Hi Hj E. apply zrange_In in Hi, Hj. apply (th_inj B); assumption.
  - intros s' _ [R1 R2]. split.
    + intros i Hi. apply (R1 (mkW (map (fun x => (x, MR)) [th A i] ++ [(th B i, MW)]) (copy_cpu (T := T)) (th B i) (fun st => st (th A i)))). apply in_map_iff. exists i. split; [reflexivity|apply zrange_In; assumption].
    + intros h Hh. apply R2. intros w Hw. apply in_map_iff in Hw as (i & <- & Hi). apply zrange_In in Hi. cbn [w_h]. intros <-. apply (Hh B); [left; reflexivity|]. apply th_In; assumption.
Qed.
(** int64 tensors: element by element *)
Corollary copy_int_runs (A B : tensor) (s : store T) : wft A -> wft B -> stored KI s A -> stored KI s B -> disj A B -> same_tiling A B ->
  runs (copy_async A B) s (fun s' => (forall idx, inb (t_shape B) idx -> ielem s' B idx = ielem s A idx) /\ frame [B] s s').
Proof.
  intros HA HB SA SB Hd HS. eapply runs_weaken; [apply (copy_runs KI); assumption|]. intros s' _ [R1 R2]. split; [|assumption].
  intros idx Hi. destruct HS as [ES EB]. unfold ielem. rewrite (etile_ext A B), (eoff_ext A B) by assumption. rewrite R1; [reflexivity|]. apply etile_bound; assumption.
Qed.
End C.
