(** * C76 on concrete logits: 7 classes, 5 samples *)
From Coq Require Import Reals Lra.
From Verif Require Import Base Spec Geometry Traits TraitsProofs Runtime Ops RealOps TensorSem ElemGeneric Concrete XReals XTriples HasRuns PyLayers PyModels BuildEnv BuildModel CeBuild.
Local Close Scope R_scope.
Local Open Scope list_scope.
Local Open Scope Z_scope.

Lemma input_binv x lo next : wf_tensor x -> lo <= next -> (forall h, In h (tile_handles x) -> lo <= h < next) -> binv lo (input_build x None next).
Proof.
  intros Wx Hlo Hx. split; cbn [b_mem b_next b_n input_build].
  - assumption.
  - intros [[|m]|[|m]|l m] t Ht; try discriminate. congruence.
  - intros [[|m]|[|m]|l m] t h Ht Hh; try discriminate. apply Hx. congruence.
  - intros [[|m]|[|m]|l m] [[|m']|[|m']|l' m'] t u Ht Hu Hne; try discriminate. congruence.
  - intros m Hm. destruct m; [lia|]. split; reflexivity.
Qed.
Definition logits (tile : Z) : tensor := std_tensor [7; 5] [tile; 2] 0.
Theorem C76_example :
  (exists labels b', gen_cross_entropy 0 (input_build (logits 8) None 20) = Ok (labels, b') /\ t_shape labels = [5] /\ t_base labels = [2]) /\
  gen_cross_entropy 0 (input_build (logits 6) None 20) = Throw "Wrong distribution".
Proof.
  assert (Q : forall tile, tile = 6 \/ tile = 8 -> (7 <= tile -> exists labels b', gen_cross_entropy 0 (input_build (logits tile) None 20) = Ok (labels, b') /\ t_shape labels = [5] /\ t_base labels = [2]) /\
    (tile < 7 -> gen_cross_entropy 0 (input_build (logits tile) None 20) = Throw "Wrong distribution")).
  { intros tile Ht.
    assert (W1 : wf_tensor (logits tile)) by (apply std_wf; [reflexivity|repeat constructor; lia|repeat constructor; lia]).
    apply (C76_cross_entropy_accepts 0 0 7 tile [5] [2] (input_build (logits tile) None 20)).
    - apply input_binv; [exact W1|lia|]. intros h Hh. apply std_handles in Hh. destruct Ht as [->| ->]; [change (0 <= h < 6) in Hh|change (0 <= h < 3) in Hh]; lia.
    - intros k i Hk. reflexivity.
    - exists (logits tile). split; [reflexivity|]. destruct Ht as [->| ->]; repeat split.
    - split; [reflexivity|]. split; repeat constructor; lia. }
  split; [apply (Q 8); [right; reflexivity|lia]|apply (Q 6); [left; reflexivity|lia]].
Qed.
