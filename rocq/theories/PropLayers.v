(** * C46-C48: the Python layers; forward computes the layer's function, backward adds the
    gradients of its inputs *)
From Coq Require Import Reals Lra FunctionalExtensionality.
From Coquelicot Require Import Coquelicot.
From Verif Require Import Base Spec Geometry Traits TraitsProofs Runtime Ops RealOps TensorSem OneOut ElemOps Formulas PropDeriv Axis FiberGeo Sequence XReals NdRuns RSum MatOps XTriples HasRuns TapeMath VjpMath Tape PyLayers PyLinear PySimple PyNorm Backprop.
Local Close Scope Z_scope.
Local Open Scope R_scope.

Section Layers.
Context {E : env} (req : nat -> bool).

(** What is known of a store: the values of the nodes [ns], and all required gradients. *)
Record knows_state (ns : list nat) (e G : nat -> arr) (s : store XR) : Prop := {
  ks_alloc : allocated s;
  ks_val : forall n, In n ns -> value s n (e n);
  ks_grad : forall n, U (Grad n) -> req n = true -> gradient s n (G n)
}.

(** Specification of a layer with input nodes [ins], output node [y] and function [F] of the
    input values: from any state in which the inputs hold finite values [e] (in the domain [D])
    and the gradients [G], running the forward and the backward program under any schedule ends
    without error, with y holding F, every value but y unchanged, and the gradient of every other
    node n increased by the derivative, in each entry of n, of the pairing of the gradient of y
    with the output. *)
Definition differentiates (ins : list nat) (y : nat) (F : (nat -> arr) -> arr) (D : (nat -> arr) -> Prop)
    (fwd bwd : res (list (task XR))) : Prop :=
  forall ns e G s, incl ins ns -> NoDup ns -> ~ In y ns -> (forall n, In n ns -> U (Val n)) -> D (fun j => e (nth j ins 0%nat)) -> knows_state ns e G s ->
    runs_nd (pyseq [fwd; bwd]) s (fun s' =>
      value s' y (F (fun j => e (nth j ins 0%nat))) /\
      exists G', knows_state ns e G' s' /\
        forall n idx, In n ns -> inb (vshape n) idx ->
          is_derive (fun t => Rsuml (all_idx (vshape y)) (fun i => G y i * F (fun j => vary e n idx t (nth j ins 0%nat)) i))
            (e n idx) (G' n idx - G n idx)).

(** The known part of a state, as an assertion on names. *)
Definition map_of (ns : list nat) (e : nat -> arr) (tmps : smap) : smap := fun x =>
  match x with Val n => if in_dec Nat.eq_dec n ns then Some (fin (e n)) else None | Grad _ => None | Tmp _ _ => tmps x end.
Lemma knows_map ns e tmps : knows e (map_of ns e tmps) ns.
Proof. intros n Hn. cbn. destruct (in_dec Nat.eq_dec n ns); [reflexivity|contradiction]. Qed.
Lemma state_st ns e G s : knows_state ns e G s -> st req (map_of ns e (fun _ => None)) G s.
Proof.
  intros [[HK HS] HV HG]. split; [assumption|]. intros x Hx. split; [auto|]. intros f Hf. destruct x as [n|n|k i]; cbn [ov map_of] in Hf.
  - destruct (in_dec Nat.eq_dec n ns); [|discriminate]. inversion Hf; subst. apply HV. assumption.
  - destruct (req n) eqn:Er; [|discriminate]. inversion Hf; subst. apply HG; assumption.
  - discriminate.
Qed.
Lemma st_state ns e M G s : st req M G s -> knows e M ns -> (forall n, In n ns -> U (Val n)) -> knows_state ns e G s.
Proof.
  intros [HK HS] Hk HU. split.
  - split; [assumption|]. intros x Hx. apply HS. assumption.
  - intros n Hn. apply (HS (Val n) (HU n Hn)). apply Hk. assumption.
  - intros n Hu Hr. apply (HS (Grad n) Hu). cbn [ov]. rewrite Hr. reflexivity.
Qed.

Lemma dot_gradient sh gy : pos sh -> gradient_of sh (fun _ => True) (dot sh gy) (fun _ => gy).
Proof.
  intros Hp c c' t0 _ Hc. unfold dot.
  apply (is_derive_Rsuml (all_idx sh) (fun i t => gy i * c t i) (fun i => gy i * c' i)). intros i Hi. apply all_idx_In in Hi; [|assumption].
  apply (is_derive_scal (fun t => c t i) t0 (gy i)). apply Hc. assumption.
Qed.

Theorem layer_differentiates (l : layer) : layer_good req l -> U (Val (ml_out (ly_m l))) ->
  differentiates (ml_ins (ly_m l)) (ml_out (ly_m l)) (ml_F (ly_m l)) (ml_D (ly_m l)) (pl_forward (ly_py l)) (pl_backward (ly_py l)).
Proof.
  intros [Hok Hv] Uy ns e G s Hinc Hnd Hy HU HD Hs.
  assert (Hord : ordered [ly_m l] ns).
  { cbn. split; [|split; [assumption|exact I]]. intros j Hj. apply Hinc. apply nth_In. exact Hj. }
  assert (Hdom : dom [ly_m l] e) by (split; [exact HD|exact I]).
  assert (H1 : Forall (layer_ok req) [l]) by (constructor; [assumption|constructor]).
  assert (H2 : NoDup (map ly_id [l])) by (constructor; [intros []|constructor]).
  assert (H3 : NoDup (outs (map ly_m [l]))) by (constructor; [intros []|constructor]).
  eapply py_cons.
  { pose proof (forward_tape req [l] H1 H2 e ns _ G s Hord Hdom (state_st _ _ _ _ Hs) (knows_map ns e _)) as Hf.
    unfold model_forward in Hf. cbn [map] in Hf. rewrite pyseq_1 in Hf. exact Hf. }
  cbv beta. intros s1 (M1 & S1 & K1 & C1 & V1 & _).
  rewrite pyseq_1. eapply nd_weaken.
  { pose proof (backward_tape req [l] H1 H2 H3 e M1 G s1 Hdom S1 C1) as Hb.
    unfold model_backward in Hb. cbn [map rev app] in Hb. rewrite pyseq_1 in Hb. exact Hb. }
  cbv beta. intros s2 _ (M2 & G2 & S2 & B2 & V2 & _). cbn [map outs app] in *.
  assert (Ee : eval [ly_m l] e (ml_out (ly_m l)) = ml_F (ly_m l) (fun j => e (nth j (ml_ins (ly_m l)) 0%nat))).
  { cbn. unfold fire. destruct (Nat.eq_dec (ml_out (ly_m l)) (ml_out (ly_m l))); [reflexivity|congruence]. }
  assert (Hleaf : forall n, In n ns -> ~ In n (outs [ly_m l])) by (intros n Hn [C|[]]; subst; contradiction).
  split; [|exists G2; split].
  - rewrite <- Ee. apply S2; [assumption|]. cbn [ov]. rewrite V2. apply K1. left. reflexivity.
  - apply (st_state ns e M2); [assumption| |assumption]. intros n Hn. rewrite V2, K1 by (right; assumption). f_equal. f_equal. apply eval_leaf. apply Hleaf. assumption.
  - intros n idx Hn Hi. rewrite B2 by (apply Hleaf; assumption).
    pose proof (back_gradient vshape (ml_out (ly_m l) :: ns) [ly_m l] (ml_out (ly_m l)) (fun _ => True) (dot (vshape (ml_out (ly_m l))) (G (ml_out (ly_m l)))) (fun _ => G (ml_out (ly_m l))) e G) as Hb.
    eapply is_derive_ext; [|apply Hb].
    + intros t. cbv beta. cbn [eval]. unfold fire. destruct (Nat.eq_dec (ml_out (ly_m l)) (ml_out (ly_m l))); [|congruence]. reflexivity.
    + constructor; assumption.
    + intros k [<-|Hk]; apply wf_ps, wf_wft, UW; auto.
    + constructor; [assumption|constructor].
    + apply (ordered_ssa _ ns). assumption.
    + intros k [<-|[]]. left. reflexivity.
    + intros l' j [<-|[]] Hj. right. apply Hinc. apply nth_In. exact Hj.
    + left. reflexivity.
    + apply dot_gradient. apply wf_ps, wf_wft, UW. assumption.
    + assumption.
    + exact I.
    + reflexivity.
    + intros m i [<-|[]] Hm. congruence.
    + right. assumption.
    + apply Hleaf. assumption.
    + assumption.
Qed.

(** ** C46: Linear *)
(** y = x W + b on side L, y = W x + b on side R, contracted over the common dimensions sK; x is
    stored transposed if tx = Trans; the bias is along the first (R) or last (L) axis of y. *)
Definition linear_spec (sd : side) (tx : transop) (sI sK sJ : list Z) (bias : option arr) (X W Y : arr) : Prop :=
  forall i j, inb sI i -> inb sJ j ->
    match sd with
    | SideL => Y (i ++ j) = Rsuml (all_idx sK) (fun k => X (match tx with NoTrans => i ++ k | Trans => k ++ i end) * W (k ++ j)) + match bias with Some b => b j | None => 0 end
    | SideR => Y (j ++ i) = Rsuml (all_idx sK) (fun k => W (j ++ k) * X (match tx with NoTrans => k ++ i | Trans => i ++ k end)) + match bias with Some b => b j | None => 0 end
    end.

Theorem C46_linear sd tx x y w nd b sI sK sJ bI bK bJ : linear_ok req sd tx x y w nd b sI sK sJ bI bK bJ ->
  exists F : (nat -> arr) -> arr,
    (forall vs, linear_spec sd tx sI sK sJ (match b with Some _ => Some (vs 2%nat) | None => None end) (vs 0%nat) (vs 1%nat) (F vs)) /\
    differentiates (x :: w :: match b with Some n => [n] | None => [] end) y F (fun _ => True)
      (linear_forward sd tx (node req x) (node req y) (node req w) nd (option_map (node req) b))
      (linear_backward sd tx (node req x) (node req y) (node req w) nd (option_map (node req) b)).
Proof.
  intros H. exists (lin_F sd tx sI sK sJ (match b with Some _ => true | None => false end)). split.
  - intros vs i j Hi Hj. unfold lin_F.
    assert (Hb : forall n, b = Some n -> fib (lin_axis sd sI) 0 (match sd with SideL => i ++ j | SideR => j ++ i end) = j).
    { intros n Eb. destruct (lo_b _ _ _ _ _ _ _ _ _ _ _ _ _ _ H n Eb) as (L1 & _). rewrite (inb_zlen _ _ Hj) in L1. destruct (zlen1 _ L1) as [d ->].
      unfold lin_axis. destruct sd; [rewrite (inb_zlen _ _ Hi); apply fib_L|apply fib_R]. }
    destruct sd.
    + rewrite matmul_0 by assumption. f_equal; [apply Rsuml_ext; intros k _; destruct tx; app_norm; reflexivity|].
      destruct b as [n|]; [|reflexivity]. rewrite (Hb n eq_refl). reflexivity.
    + rewrite matmul_0 by assumption. f_equal; [apply Rsuml_ext; intros k _; destruct tx; app_norm; reflexivity|].
      destruct b as [n|]; [|reflexivity]. rewrite (Hb n eq_refl). reflexivity.
  - apply (layer_differentiates (linear_layer req sd tx x y w nd b 0 sI sK sJ)).
    + split; [eapply linear_layer_ok; exact H|eapply linear_vjp; exact H].
    + destruct (lo_nodes _ _ _ _ _ _ _ _ _ _ _ _ _ _ H) as (_ & [Uy _] & _). exact Uy.
Qed.

(** ** C47: LayerNorm *)
(** Every line of x along the axis is shifted to mean 0 and divided by the square root of its
    variance plus eps squared; then scaled by gamma and shifted by beta. *)
Definition layer_norm_spec (sh : list Z) (axis : Z) (eps : R) (X gamma beta Y : arr) : Prop :=
  forall d k, inb (del axis sh) d -> (0 <= k < zn sh axis)%Z ->
    let l := IZR (zn sh axis) in
    let mean := Rsum (zn sh axis) (fun i => X (ins axis i d)) / l in
    let var := Rsum (zn sh axis) (fun i => (X (ins axis i d) - mean) * (X (ins axis i d) - mean)) / l in
    Y (ins axis k d) = gamma [k] * ((X (ins axis k d) - mean) / sqrt (var + eps * eps)) + beta [k].

Theorem C47_layer_norm x y gamma beta axis eps id : ln_ok req x y gamma beta axis eps id ->
  exists F : (nat -> arr) -> arr,
    (forall vs, layer_norm_spec (vshape y) axis eps (vs 0%nat) (vs 1%nat) (vs 2%nat) (F vs)) /\
    differentiates [x; gamma; beta] y F (fun _ => True)
      (layer_norm_forward (node req x) (node req y) (node req gamma) (node req beta) (A (Tmp id 0)) (A (Tmp id 2)) (A (Tmp id 3)) axis (Fin eps))
      (layer_norm_backward (node req x) (node req y) (node req gamma) (node req beta) (A (Tmp id 0)) (A (Tmp id 1)) (A (Tmp id 2)) (A (Tmp id 3)) axis).
Proof.
  intros H. exists (ln_F (vshape y) axis eps). split.
  - intros vs d k Hd Hk. cbv zeta. unfold ln_F, ln_norm, rinv, rvar, rmean, row.
    assert (Ha : (0 <= axis < zlen (vshape y))%Z) by (destruct (no_fg _ _ _ _ _ _ _ _ H) as (_ & Ha & _); unfold vshape; lia).
    assert (Hl : (0 <= axis <= zlen d)%Z) by (rewrite <- (inb_zlen _ _ Hd), zlen_del by lia; lia).
    rewrite del_ins, zn_ins by lia. unfold Rdiv. rewrite !Rmult_1_l. rewrite !(Rmult_comm (/ IZR (zn (vshape y) axis))). reflexivity.
  - apply (layer_differentiates (ln_layer req x y gamma beta axis eps id)).
    + split; [eapply ln_layer_ok; exact H|eapply ln_vjp; exact H].
    + apply (no_y _ _ _ _ _ _ _ _ H).
Qed.

(** ** C48: Act, Add, AddSlice, Embedding *)
(** ReLU away from 0, where it has no derivative; GELU everywhere. *)
Theorem C48_act f x y : act_ok req x y ->
  differentiates [x] y (fun vs idx => match f with Relu => Rmax (vs 0%nat idx) 0 | Gelu => gelu (vs 0%nat idx) | GeluTanh => gelu_tanh (vs 0%nat idx) end)
    (fun vs => f = Relu -> forall idx, inb (vshape y) idx -> vs 0%nat idx <> 0)
    (act_forward f (node req x) (node req y)) (act_backward f (node req x) (node req y)).
Proof.
  intros H. pose proof (layer_differentiates (act_layer req f x y 0) (conj (act_layer_ok req f x y 0 H) (act_vjp req f x y 0 H)) (proj1 (ao_y _ _ _ H))) as HD.
  intros ns e G s H1 H2 H3 H4 H5 H6. specialize (HD ns e G s H1 H2 H3 H4). destruct f; apply HD; try assumption; cbn; auto.
Qed.
Theorem C48_add x y r : add_ok req x y r ->
  differentiates [x; y] r (fun vs idx => vs 0%nat idx + vs 1%nat idx) (fun _ => True)
    (add_forward (node req x) (node req y) (node req r)) (add_backward (node req x) (node req y) (node req r)).
Proof.
  intros H. exact (layer_differentiates (add_layer req x y r 0) (conj (add_layer_ok req x y r 0 H) (add_vjp req x y r 0 H)) (proj1 (do_r _ _ _ _ H))).
Qed.
Theorem C48_add_slice x y u axis : add_slice_ok req x y u axis ->
  differentiates [x; y] u (fun vs idx => vs 0%nat idx + vs 1%nat (del axis idx)) (fun _ => True)
    (add_slice_forward (node req x) (node req y) (node req u) axis) (add_slice_backward (node req x) (node req y) (node req u) axis).
Proof.
  intros H. exact (layer_differentiates (add_slice_layer req x y u axis 0) (conj (add_slice_layer_ok req x y u axis 0 H) (add_slice_vjp req x y u axis 0 H)) (proj1 (so_u _ _ _ _ _ H))).
Qed.
(** The token indices [iv] stay in the index tensor; output entry (.., k at axis, ..) is entry k
    of the column of the vocabulary named by the index. *)
Theorem C48_embedding ix iv y w axis : emb_ok req ix iv y w axis ->
  differentiates [w] y (fun vs idx => vs 0%nat [zn idx axis; iv (del axis idx)]) (fun _ => True)
    (embedding_forward ix (node req y) (node req w) axis) (embedding_backward ix (node req y) (node req w) axis).
Proof.
  intros H. exact (layer_differentiates (emb_layer req ix iv y w axis 0) (conj (emb_layer_ok req ix iv y w axis 0 H) (emb_vjp req ix iv y w axis 0 H)) (proj1 (eo_y _ _ _ _ _ _ H))).
Qed.
End Layers.
