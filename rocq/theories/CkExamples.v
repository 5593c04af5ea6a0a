(** * The hypotheses of C67 and C68 are met: concrete tensors, arrays and optimizers *)
From Verif Require Import Base Spec Geometry Traits TraitsProofs Runtime Ops TensorSem OneOut Sequence NdRuns Concrete
  SubcopyOps NumpyIO PropNumpy PyLayers Checkpoint PropCheckpoint.
Local Open Scope Z_scope.

(** elements are numbers *)
Definition ZD : Dflt Z := 0.
Local Existing Instance ZD.

(** A 3 x 2 tensor of 2 x 2 tiles (two tiles), the same tensor in one tile, two more of both kinds. *)
Definition t1 : tensor := std_tensor [3; 2] [2; 2] 0.
Definition t2 : tensor := std_tensor [3; 2] [2; 2] 2.
Definition u1 : tensor := std_tensor [3; 2] [3; 1] 4.
Definition u2 : tensor := std_tensor [3; 2] [3; 1] 6.
Definition arr1 : ndarray := {| a_shape := [3; 2]; a_mem := 8 |}.
Definition arr2 : ndarray := {| a_shape := [3; 2]; a_mem := 9 |}.
Definition st : store Z := fun h =>
  if h =? 0 then BF [1; 2; 4; 5] else if h =? 1 then BF [3; 6] else
  if h =? 2 then BF [7; 8; 10; 11] else if h =? 3 then BF [9; 12] else
  if (4 <=? h) && (h <=? 7) then BF [0; 0; 0] else
  if (8 <=? h) && (h <=? 10) then BF [21; 22; 23; 24; 25; 26] else BI [0; 0; 0; 0].

Lemma ts2 t h0 : t = std_tensor [3; 2] [2; 2] h0 -> zlen [3; 2] = zlen [2; 2] -> ty (st h0) = (KF, 4) -> ty (st (h0 + 1)) = (KF, 2) -> stored KF st t.
Proof.
  intros -> _ H1 H2 i Hi. change (ntiles (std_tensor [3; 2] [2; 2] h0)) with 2 in Hi. rewrite std_th by (change (prodZ (gridZ [3; 2] [2; 2])) with 2; lia).
  assert (E : i = 0 \/ i = 1) by lia. destruct E as [-> | ->]; [rewrite Z.add_0_r; exact H1|exact H2].
Qed.
Lemma us2 t h0 : t = std_tensor [3; 2] [3; 1] h0 -> zlen [3; 2] = zlen [3; 1] -> ty (st h0) = (KF, 3) -> ty (st (h0 + 1)) = (KF, 3) -> stored KF st t.
Proof.
  intros -> _ H1 H2 i Hi. change (ntiles (std_tensor [3; 2] [3; 1] h0)) with 2 in Hi. rewrite std_th by (change (prodZ (gridZ [3; 2] [3; 1])) with 2; lia).
  assert (E : i = 0 \/ i = 1) by lia. destruct E as [-> | ->]; [rewrite Z.add_0_r; exact H1|exact H2].
Qed.
Lemma hin sh ba h0 h : ~ (h0 <= h < h0 + prodZ (gridZ sh ba)) -> ~ In h (tile_handles (std_tensor sh ba h0)).
Proof. intros H C. apply std_handles in C. contradiction. Qed.
Ltac nin := unfold t1, t2, u1, u2; apply hin; vm_compute; lia || (intros [? ?]; congruence).

Lemma wfs : wf_tensor t1 /\ wf_tensor t2 /\ wf_tensor u1 /\ wf_tensor u2.
Proof. unfold t1, t2, u1, u2. repeat split; std_wf_tac. Qed.
Lemma t1_ready : io_ready st t1 arr1 10 11.
Proof.
  split; try reflexivity; try (unfold arr1; cbn [a_mem]; nin); try (intros C; discriminate C).
  apply (ts2 t1 0); reflexivity.
Qed.
Theorem C67_example_from_array : runs (from_array t1 arr1 10 11) st (fun s' =>
  elem s' t1 [0; 0] = 21 /\ elem s' t1 [2; 0] = 23 /\ elem s' t1 [1; 1] = 25 /\ elem s' t1 [2; 1] = 26).
Proof.
  eapply runs_weaken; [apply (proj1 (C67_from_array t1 arr1 10 11 st ltac:(std_wf_tac)) eq_refl t1_ready)|].
  intros s' _ [H _]. repeat split; rewrite H by (repeat constructor; lia); reflexivity.
Qed.
Theorem C67_example_to_array : runs_nd (to_array t1 arr1 10 11) st (fun s' =>
  acell s' arr1 [0; 0] = 1 /\ acell s' arr1 [2; 0] = 3 /\ acell s' arr1 [1; 1] = 5 /\ acell s' arr1 [2; 1] = 6).
Proof.
  eapply nd_weaken; [apply (proj1 (C67_to_array t1 arr1 10 11 st ltac:(std_wf_tac)) eq_refl t1_ready)|].
  intros s' _ [H _]. repeat split; match goal with |- acell _ _ ?i = _ => change i with (aidx i) end; rewrite H by (repeat constructor; lia); reflexivity.
Qed.
Theorem C67_example_bad_shape : throws (from_array (T := Z) t1 {| a_shape := [2; 3]; a_mem := 8 |} 10 11).
Proof. apply (C67_from_array t1 _ 10 11 st); [std_wf_tac|discriminate]. Qed.

(** ** Checkpoint of an optimizer with one parameter: saved from the first tiling, loaded into the other *)
Definition hy (lr it : Z) : hyper Z := {| hy_lr := lr; hy_b1 := 9; hy_b2 := 99; hy_eps := 1; hy_wd := 0; hy_warm := (None, None); hy_iter := it |}.
Definition o1 : optobj Z := {| oo_moments := [(t1, t2)]; oo_max := []; oo_hyper := hy 3 17 |}.
Definition o2 : optobj Z := {| oo_moments := [(u1, u2)]; oo_max := []; oo_hyper := hy 5 1 |}.
Definition q1 (j : nat) : slot := {| sl_mem := 8 + Z.of_nat j; sl_next := 10; sl_scr := 11 |}.

Ltac two j := destruct j as [|[|j]]; cbn [nth_error moments_of flat flat_map app oo_moments o1 o2 fst snd map] in *; try discriminate.
Lemma o1_saveable : saveable st (moments_of o1) q1.
Proof.
  split.
  - intros j t Hj. two j; try (destruct j; discriminate); injection Hj as <-; (split; [apply wfs|]); (split; [discriminate|]);
      (split; [first [apply (ts2 _ 0); reflexivity | apply (ts2 _ 2); reflexivity]|]); repeat split.
  - intros i j t Hi Hj. cbn [moments_of flat flat_map app oo_moments o1 List.length] in Hi. assert (E : i = O \/ i = 1%nat) by lia.
    two j; try (destruct j; discriminate); injection Hj as <-; destruct E as [-> | ->]; (split; [nin|split; [nin|discriminate]]).
  - intros i j Hij. cbn [moments_of flat flat_map app oo_moments o1 List.length] in Hij. assert (i = O /\ j = 1%nat) as [-> ->] by lia. discriminate.
Qed.
Lemma o2_loadable : loadable st [{| a_shape := [3; 2]; a_mem := 8 |}; {| a_shape := [3; 2]; a_mem := 9 |}] (moments_of o2) q1.
Proof.
  split.
  - intros j x t Hx Ht. two j; try (destruct j; discriminate); injection Hx as <-; injection Ht as <-; (split; [apply wfs|]); (split; [discriminate|]);
      (split; [first [apply (us2 _ 4); reflexivity | apply (us2 _ 6); reflexivity]|]); repeat split.
  - intros i j x t Hx Ht. two i; try (destruct i; discriminate); injection Hx as <-; two j; try (destruct j; discriminate); injection Ht as <-; (split; nin).
  - intros i j x Hi Hx. cbn [List.length] in Hi. assert (E : i = O \/ i = 1%nat) by lia. two j; try (destruct j; discriminate); injection Hx as <-; destruct E as [-> | ->]; discriminate.
  - intros i j t u Hij Ht Hu. two i; try (destruct i; discriminate); two j; try (destruct j; discriminate); try congruence; injection Ht as <-; injection Hu as <-; unfold u1, u2; apply std_disj; vm_compute; [left|right]; discriminate.
Qed.
Theorem C68_example : runs_nd (then_ (fst (fused_save (fun x => x) (fun x => x) Torch o1 FP32 q1)) (fst (fused_load o2 (snd (fused_save (fun x => x) (fun x => x) Torch o1 FP32 q1)) q1))) st
  (fun s' => elem s' u1 [2; 0] = 3 /\ elem s' u1 [1; 1] = 5 /\ elem s' u2 [2; 1] = 12) /\
  hy_iter (oo_hyper (snd (fused_load o2 (snd (fused_save (fun x => x) (fun x => x) Torch o1 FP32 q1)) q1))) = 17.
Proof.
  pose proof (C68_fused_checkpoint (fun x => x) (fun x => x) Torch o1 o2 FP32 q1 q1 st ltac:(discriminate) (or_introl eq_refl) eq_refl o1_saveable o2_loadable) as (H & _).
  split; [|reflexivity]. eapply nd_weaken; [exact H|]. intros s' _ G.
  split; [|split]; [rewrite (G O t1 u1 [2; 0] eq_refl eq_refl ltac:(repeat constructor; lia))|rewrite (G O t1 u1 [1; 1] eq_refl eq_refl ltac:(repeat constructor; lia))|rewrite (G 1%nat t2 u2 [2; 1] eq_refl eq_refl ltac:(repeat constructor; lia))]; reflexivity.
Qed.
