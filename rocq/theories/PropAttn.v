(** * C57, C58: the Attention and FlashAttention layers *)
From Coq Require Import Reals Lra FunctionalExtensionality.
From Coquelicot Require Import Coquelicot.
From Verif Require Import Base Spec Geometry Traits Runtime Ops TensorSem XReals Sequence NdRuns RSum AttnSpec XTriples HasRuns TapeMath VjpMath Tape PyLayers PyLinear Backprop AttMath PyAttn PyFlash PropLayers.
Local Close Scope Z_scope.
Local Open Scope R_scope.

(** Multi-head attention.  Position of an argument: 0, 1, 2 the inputs x_q, x_k, x_v, indexed
    [feature; position; batch]; 3, 4, 5 the projection weights, indexed [head; head feature;
    feature]; 6 the output weight, indexed [output feature; head; head feature]; 7, 8, 9 the
    projection biases, indexed [head feature; head]; 10 the output bias.
    [attention h n m K Q V] (AttnSpec) is soft-max of the scaled products of keys and queries over
    the keys the mask [m] allows, times the values. *)
Definition attention_spec (D : adims) (m : list Z -> bool) (bias : bool) (vs : nat -> arr) (Y : arr) : Prop :=
  let project (e : Z) (w x b : nat) : arr := fun l => let d := zn l 0 in let i := zn l 1 in let x' := zn l 2 in let y := zn l 3 in
    Rsum e (fun k => vs w [y; d; k] * vs x [k; i; x']) + (if bias then vs b [d; y] else 0) in
  let Q := project (d_e D) 3%nat 0%nat 7%nat in
  let K := project (d_ek D) 4%nat 1%nat 8%nat in
  let V := project (d_ev D) 5%nat 2%nat 9%nat in
  forall o i x, (0 <= o < d_e D)%Z -> (0 <= i < d_n D)%Z -> (0 <= x < d_b D)%Z ->
    Y [o; i; x] = Rsum (d_nh D) (fun y => Rsum (d_h D) (fun d => vs 6%nat [o; y; d] * attention (d_h D) (d_n D) m K Q V d i x y)) +
                  (if bias then vs 10%nat [o] else 0).

Section Attn.
Context {E : env} (req : nat -> bool).

Lemma att_F_spec (D : adims) m b vs : attention_spec D m b vs (att_F (d_e D) (d_ek D) (d_ev D) (d_h D) (d_n D) (d_nh D) m b vs).
Proof.
  unfold attention_spec. intros o i x Ho Hi Hx. unfold att_F, outp. change (zn [o; i; x] 0) with o. change (zn [o; i; x] 1) with i. change (zn [o; i; x] 2) with x.
  f_equal. apply Rsum_ext. intros y Hy. apply Rsum_ext. intros d Hd. f_equal. unfold att_b, sdpa.
  change (zn [d; i; x; y] 0) with d. change (zn [d; i; x; y] 1) with i. change (zn [d; i; x; y] 2) with x. change (zn [d; i; x; y] 3) with y.
  assert (Eq : forall e w xx b', proj e (vs w) (vs xx) (option_map vs (ob b b')) = fun l => Rsum e (fun k => vs w [zn l 3; zn l 0; k] * vs xx [k; zn l 1; zn l 2]) + (if b then vs b' [zn l 0; zn l 3] else 0)).
  { intros. apply functional_extensionality. intros l. unfold proj, ob. destruct b; reflexivity. }
  unfold att_k, att_q, att_v. rewrite !Eq. reflexivity.
Qed.
Theorem C57_attention (L : attn) (S B : adims) (m : list Z -> bool) : attn_ok req L S B m ->
  exists F : (nat -> arr) -> arr,
    (forall vs, attention_spec S m (match an_bias L with Some _ => true | None => false end) vs (F vs)) /\
    differentiates req (an_ins L) (an_y L) F (fun _ => True) (att_fwd req L) (att_bwd req L).
Proof.
  intros H. exists (att_F (d_e S) (d_ek S) (d_ev S) (d_h S) (d_n S) (d_nh S) m (an_hasb L)). split; [intros vs; apply att_F_spec|].
  apply (layer_differentiates req (attn_layer req L S m)).
  - split; [eapply attn_layer_ok; exact H|eapply attn_vjp; exact H].
  - apply (isn_val _ _ _ _ (ao_y _ _ _ _ _ H)).
Qed.
(** The fused layer computes the same function and the same gradients. *)
Theorem C58_flash_attention_layer (L : attn) (mt : tensor) (S B : adims) (m : list Z -> bool) : flash_ok req L mt S B m ->
  exists F : (nat -> arr) -> arr,
    (forall vs, attention_spec S m (match an_bias L with Some _ => true | None => false end) vs (F vs)) /\
    differentiates req (an_ins L) (an_y L) F (fun _ => True) (flash_fwd req L mt) (flash_bwd req L mt).
Proof.
  intros H. exists (att_F (d_e S) (d_ek S) (d_ev S) (d_h S) (d_n S) (d_nh S) m (an_hasb L)). split; [intros vs; apply att_F_spec|].
  apply (layer_differentiates req (flash_layer req L mt S m)).
  - split; [eapply flash_layer_ok; exact H|eapply flash_vjp; exact H].
  - apply (isn_val _ _ _ _ (ao_y _ _ _ _ _ (fo_attn _ _ _ _ _ _ H))).
Qed.
End Attn.
