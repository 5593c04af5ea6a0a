(** * The layers Act, Add, AddSlice and Embedding *)
From Coq Require Import Reals Lra FunctionalExtensionality.
From Coquelicot Require Import Coquelicot.
From Verif Require Import Base Spec Geometry Traits TraitsProofs Runtime Ops RealOps TensorSem OneOut ElemOps Axis SliceOps SliceGeo PropElem PropSlice RSum XReals Sequence NdRuns LossOps EmbedRuns PropLoss PropDeriv AttnSpec XTriples HasRuns HasRuns2 TapeMath VjpMath Tape PyLayers PyLinear.
Local Close Scope Z_scope.
Local Open Scope R_scope.

(** ** Reductions as preimage sums *)
Lemma pre_id sh gy k : pos sh -> inb sh k -> pre sh (fun i => i) gy k = gy k.
Proof.
  intros P H. unfold pre. rewrite <- (dot_delta sh gy k P H). apply Rsuml_ext. intros i _. destruct (list_eq_dec Z.eq_dec i k); ring.
Qed.
Lemma pre_del sh axis gy k : pos sh -> (0 <= axis < zlen sh)%Z -> inb (del axis sh) k ->
  pre sh (del axis) gy k = Rsum (zn sh axis) (fun c => gy (ins axis c k)).
Proof.
  intros P Ha Hk. unfold pre.
  rewrite (Rsuml_ext _ _ (fun idx => (fun c i => if list_eq_dec Z.eq_dec i k then gy (ins axis c i) else 0) (zn idx axis) (del axis idx))).
  2:{ intros i Hi. apply all_idx_In in Hi; [|assumption]. apply inb_zlen in Hi. destruct (list_eq_dec Z.eq_dec (del axis i) k); [|reflexivity].
      rewrite ins_del by lia. reflexivity. }
  rewrite (Rsuml_axis sh axis (fun c i => if list_eq_dec Z.eq_dec i k then gy (ins axis c i) else 0)) by assumption.
  assert (Pd : pos (del axis sh)).
  { destruct (split_at sh axis Ha) as (a & x & b & -> & L). rewrite del_app by assumption. unfold pos in *. rewrite Forall_app in *.
    destruct P as [P1 P2]. inversion P2; subst. auto. }
  rewrite <- (dot_delta (del axis sh) (fun i => Rsum (zn sh axis) (fun c => gy (ins axis c i))) k Pd Hk).
  apply Rsuml_ext. intros i _. destruct (list_eq_dec Z.eq_dec i k); [ring|]. rewrite Rmult_0_r. apply Rsuml_0. reflexivity.
Qed.

Section Layers.
Context {E : env} (req : nat -> bool).
Notation node_ok := (node_ok req).

Lemma node_pos n : node_ok n -> pos (vshape n).
Proof. intros [Un _]. apply wf_ps, wf_wft, UW. assumption. Qed.

(** ** Act *)
Definition act_fun (f : actfun) : R -> R := match f with Relu => relu | Gelu => gelu | GeluTanh => gelu_tanh end.
Definition act_fun' (f : actfun) : R -> R := match f with Relu => relu' | Gelu => gelu' | GeluTanh => gelu_tanh' end.
Definition act_smooth (f : actfun) (x : R) : Prop := match f with Relu => x <> 0 | _ => True end.

Record act_ok (x y : nat) : Prop := {
  ao_x : node_ok x; ao_y : node_ok y; ao_ry : req y = true; ao_ne : x <> y;
  ao_same : same_tiling (A (Val x)) (A (Val y))
}.
Definition act_layer (f : actfun) (x y id : nat) : layer := {|
  ly_m := {| ml_ins := [x]; ml_out := y; ml_F := fun vs idx => act_fun f (vs 0%nat idx);
             ml_D := fun vs => forall idx, inb (vshape y) idx -> act_smooth f (vs 0%nat idx);
             ml_dl := fun vs gy _ idx => act_fun' f (vs 0%nat idx) * gy idx |};
  ly_id := id;
  ly_py := {| pl_forward := act_forward f (node req x) (node req y); pl_backward := act_backward f (node req x) (node req y) |};
  ly_saved := fun _ _ => True |}.

Lemma same_trans (a b c : tensor) : same_tiling a b -> same_tiling b c -> same_tiling a c.
Proof. intros [] []. split; congruence. Qed.

Lemma act_layer_ok f x y id : act_ok x y -> layer_ok req (act_layer f x y id).
Proof.
  intros [[Ux Nx] [Uy Ny] Ry Hxy HS]. destruct (Ny Ry) as [Ugy Tgy].
  split; [intros ? ? ? _ _; exact I|]. split.
  - intros vs M G s Hs HD Hin. cbn [ly_py pl_forward act_layer ly_m ml_out ml_F ly_saved ly_id].
    assert (Ex : ov req G M (Val x) = Some (fin (vs 0%nat))) by (apply (Hin 0%nat); cbn; lia).
    assert (Fin_ : forall s2 N, has (upd (Val y) (Some (fin (fun idx => act_fun f (vs 0%nat idx)))) N) s2 ->
       (forall z, z <> Val y -> N z = ov req G M z) -> exists M', st req M' G s2 /\ M' (Val y) = Some (fin (fun idx => act_fun f (vs 0%nat idx))) /\ True /\
       (forall n, n <> y -> M' (Val n) = M (Val n)) /\ (forall k i, k <> id -> M' (Tmp k i) = M (Tmp k i))).
    { intros s2 N H2 HN. exists (upd (Val y) (Some (fin (fun idx => act_fun f (vs 0%nat idx)))) M). split.
      - apply st_val. eapply has_sub; [exact H2|]. intros z fz _. unfold upd. destruct (gvar_dec z (Val y)); [auto|]. rewrite HN by assumption. auto.
      - split; [apply upd_eq|]. split; [exact I|]. split; intros; rewrite upd_ne by congruence; reflexivity. }
    destruct f; cbn [act_forward].
    + eapply py_cons; [apply (h_relu _ s (Val x) (Val y) (vs 0%nat) (fun idx => relu (vs 0%nat idx)) Hs Ux Uy)|]; try assumption; [congruence|intros; reflexivity|].
      intros s1 H1. apply py_nil. eapply Fin_; [exact H1|]. reflexivity.
    + eapply py_cons; [apply (h_copy _ s (Val x) (Val y) (vs 0%nat) (vs 0%nat) Hs Ux Uy)|]; try assumption; [congruence|intros; reflexivity|].
      intros s1 H1. cbv beta in H1. eapply py_cons; [apply (h_gelu _ s1 (Val y) (vs 0%nat) (fun idx => gelu (vs 0%nat idx)) H1 Uy)|]; [apply upd_eq|intros; reflexivity|].
      intros s2 H2. apply py_nil. eapply Fin_; [exact H2|]. intros z Hz. apply upd_ne. assumption.
    + eapply py_cons; [apply (h_gelutanh _ s (Val x) (Val y) (vs 0%nat) (fun idx => gelu_tanh (vs 0%nat idx)) Hs Ux Uy)|]; try assumption; [congruence|intros; reflexivity|].
      intros s1 H1. apply py_nil. eapply Fin_; [exact H1|]. reflexivity.
  - intros vs M G s Hs HD Hin _. cbn [ly_py pl_backward act_layer ly_m ml_out ly_id]. unfold act_backward.
    assert (Ex : M (Val x) = Some (fin (vs 0%nat))) by (apply (Hin 0%nat); cbn; lia).
    eapply (py_grad req M G s x (fun idx => act_fun' f (vs 0%nat idx) * G y idx)); [exact Hs| |].
    + intros Rx. destruct (Nx Rx) as [Ugx Tgx]. cbn [node m_val m_grad].
      assert (T1 : same_tiling (A (Val x)) (A (Grad x))) by (apply same_sym; assumption).
      assert (T2 : same_tiling (A (Grad y)) (A (Grad x))) by (eapply same_trans; [exact Tgy|]; eapply same_trans; [apply same_sym; exact HS|]; apply same_sym; assumption).
      destruct f; cbn [act_fun'].
      * apply (h_relu_backward _ s (Val x) (Grad y) (Grad x) (vs 0%nat) (G y) (G x)); cbn [ov]; rewrite ?Rx, ?Ry; try assumption; congruence || reflexivity.
      * apply (h_gelu_backward _ s (Val x) (Grad y) (Grad x) (vs 0%nat) (G y) (G x)); cbn [ov]; rewrite ?Rx, ?Ry; try assumption; congruence || reflexivity.
      * apply (h_gelutanh_backward _ s (Val x) (Grad y) (Grad x) (vs 0%nat) (G y) (G x)); cbn [ov]; rewrite ?Rx, ?Ry; try assumption; congruence || reflexivity.
    + intros s1 H1. apply py_nil. exists M. eexists. split; [exact H1|]. split; [|split; reflexivity]. intros n idx _. unfold acc, contrib, arity, inp, Nsum, addg.
      cbn [ml_ins ml_dl ml_out List.length seq nth ly_m act_layer]. rewrite Rsuml_cons, Rsuml_nil. destruct (Nat.eq_dec x n); ring.
Qed.
Lemma act_vjp f x y id : act_ok x y -> vjp vshape (ly_m (act_layer f x y id)).
Proof.
  intros [Nx Ny Ry Hxy [HS _]]. apply tv_vjp. unfold arity, inp. cbn [ly_m act_layer ml_ins ml_out ml_D ml_F ml_dl List.length].
  assert (Es : vshape x = vshape y) by exact HS.
  eapply tv_ext; [| | |apply (tv_pointwise 1 (fun j => vshape (nth j [x] 0%nat)) (vshape y) _ 0 (act_fun f) (act_fun' f))].
  - intros [|j] Hj; [apply node_pos; assumption|lia].
  - reflexivity.
  - intros vs gy [|j] idx _ Hj _; [reflexivity|lia].
  - lia.
  - assumption.
  - apply node_pos; assumption.
  - intros vs i HD Hi. specialize (HD i Hi). destruct f; cbn [act_fun act_fun'].
    + apply relu_derive. assumption.
    + apply gelu_derive.
    + apply gt_derive.
Qed.

(** ** Add *)
Record add_ok (x y r : nat) : Prop := {
  do_x : node_ok x; do_y : node_ok y; do_r : node_ok r; do_rx : req x = true; do_ry : req y = true; do_rr : req r = true;
  do_xr : x <> r; do_yr : y <> r; do_sx : same_tiling (A (Val x)) (A (Val r)); do_sy : same_tiling (A (Val y)) (A (Val r))
}.
Definition add_layer (x y r id : nat) : layer := {|
  ly_m := {| ml_ins := [x; y]; ml_out := r; ml_F := fun vs idx => vs 0%nat idx + vs 1%nat idx; ml_D := fun _ => True; ml_dl := fun _ gy _ => gy |};
  ly_id := id;
  ly_py := {| pl_forward := add_forward (node req x) (node req y) (node req r); pl_backward := add_backward (node req x) (node req y) (node req r) |};
  ly_saved := fun _ _ => True |}.
Lemma addg_ne x d G n : x <> n -> addg x d G n = G n.
Proof. intros H. apply functional_extensionality. intros i. unfold addg. destruct (Nat.eq_dec x n); [congruence|ring]. Qed.

Lemma add_layer_ok x y r id : add_ok x y r -> layer_ok req (add_layer x y r id).
Proof.
  intros [[Ux Nx] [Uy Ny] [Ur Nr] Rx Ry Rr Hxr Hyr Sx Sy].
  destruct (Nx Rx) as [Ugx Tgx]. destruct (Ny Ry) as [Ugy Tgy]. destruct (Nr Rr) as [Ugr Tgr].
  split; [intros ? ? ? _ _; exact I|]. split.
  - intros vs M G s Hs HD Hin. cbn [ly_py pl_forward add_layer ly_m ml_out ml_F ly_saved ly_id]. unfold add_forward.
    assert (Ex : ov req G M (Val x) = Some (fin (vs 0%nat))) by (apply (Hin 0%nat); cbn; lia).
    assert (Ey : ov req G M (Val y) = Some (fin (vs 1%nat))) by (apply (Hin 1%nat); cbn; lia).
    eapply py_val; [apply (h_copy _ s (Val x) (Val r) (vs 0%nat) (vs 0%nat) Hs Ux Ur)|]; try assumption; [congruence|intros; reflexivity|].
    intros s1 H1. eapply py_val; [apply (h_add _ s1 (Val y) (Val r) (vs 1%nat) (vs 0%nat) (fun idx => vs 0%nat idx + vs 1%nat idx) H1 Uy Ur)|]; try assumption.
    + congruence. + cbn [ov]. rewrite upd_ne by congruence. exact Ey. + apply upd_eq. + intros. ring.
    + intros s2 H2. apply py_nil. eexists. split; [exact H2|]. split; [apply upd_eq|]. split; [exact I|]. split; intros; rewrite !upd_ne by congruence; reflexivity.
  - intros vs M G s Hs HD Hin _. cbn [ly_py pl_backward add_layer ly_m ml_out ly_id]. unfold add_backward.
    eapply (py_grad_always req M G s x (G r)); [assumption| |].
    { cbn [node m_grad]. apply (h_add _ s (Grad r) (Grad x) (G r) (G x)); cbn [ov]; rewrite ?Rx, ?Rr; try assumption; try congruence; try reflexivity.
      - eapply same_trans; [exact Tgr|]. eapply same_trans; [apply same_sym; exact Sx|]. apply same_sym. assumption.
      - intros. ring. }
    intros s1 H1. eapply (py_grad_always req M _ s1 y (G r)); [assumption| |].
    { cbn [node m_grad]. apply (h_add (ov req (addg x (G r) G) M) s1 (Grad r) (Grad y) (G r) (addg x (G r) G y)); cbn [ov]; rewrite ?Ry, ?Rr; try assumption; try congruence; try reflexivity.
      - eapply same_trans; [exact Tgr|]. eapply same_trans; [apply same_sym; exact Sy|]. apply same_sym. assumption.
      - rewrite addg_ne by assumption. reflexivity.
      - intros. ring. }
    intros s2 H2. apply py_nil. exists M. eexists. split; [exact H2|]. split; [|split; reflexivity]. intros n idx _. unfold acc, contrib, arity, inp, Nsum, addg.
    cbn [ml_ins ml_dl ml_out List.length seq nth ly_m add_layer]. rewrite !Rsuml_cons, Rsuml_nil. ring.
Qed.
Lemma tv_id n ish osh D j0 : (j0 < n)%nat -> ish j0 = osh -> pos osh -> tv n ish osh D (fun vs i => vs j0 i) (fun vs gy => sel j0 gy).
Proof.
  intros H Es P. intros c c' t0 HD Hc. exists (c' j0). split; [intros idx Hi; apply Hc; [assumption|rewrite Es; assumption]|].
  intros gy. rewrite Nsum_sel by assumption. rewrite Es. reflexivity.
Qed.
Lemma add_vjp x y r id : add_ok x y r -> vjp vshape (ly_m (add_layer x y r id)).
Proof.
  intros [Nx Ny Nr _ _ _ _ _ [Sx _] [Sy _]]. apply tv_vjp. unfold arity, inp. cbn [ly_m add_layer ml_ins ml_out ml_D ml_F ml_dl List.length].
  assert (E1 : vshape x = vshape r) by exact Sx. assert (E2 : vshape y = vshape r) by exact Sy.
  assert (P := node_pos r Nr).
  eapply tv_ext; [| | |apply tv_plus; [apply (tv_id 2 (fun j => vshape (nth j [x; y] 0%nat)) (vshape r) _ 0)|apply (tv_id 2 (fun j => vshape (nth j [x; y] 0%nat)) (vshape r) _ 1)]]; try assumption; try lia.
  - intros [|[|j]] Hj; [apply node_pos; assumption|apply node_pos; assumption|lia].
  - reflexivity.
  - intros vs gy [|[|j]] idx _ Hj _; [| |lia]; unfold sel; cbn; ring.
Qed.

(** ** AddSlice *)
Record add_slice_ok (x y u : nat) (axis : Z) : Prop := {
  so_x : node_ok x; so_y : node_ok y; so_u : node_ok u; so_rx : req x = true; so_ry : req y = true; so_ru : req u = true;
  so_xu : x <> u; so_yu : y <> u; so_sx : same_tiling (A (Val x)) (A (Val u)); so_sy : slice_match (A (Val u)) (A (Val y)) axis
}.
Definition add_slice_layer (x y u : nat) (axis : Z) (id : nat) : layer := {|
  ly_m := {| ml_ins := [x; y]; ml_out := u; ml_F := fun vs idx => vs 0%nat idx + vs 1%nat (del axis idx); ml_D := fun _ => True;
             ml_dl := fun _ gy j => match j with O => gy | _ => fun idx => Rsum (zn (vshape u) axis) (fun k => gy (ins axis k idx)) end |};
  ly_id := id;
  ly_py := {| pl_forward := add_slice_forward (node req x) (node req y) (node req u) axis; pl_backward := add_slice_backward (node req x) (node req y) (node req u) axis |};
  ly_saved := fun _ _ => True |}.
Lemma slice_same b s b' s' axis : slice_match b s axis -> same_tiling b' b -> same_tiling s' s -> slice_match b' s' axis.
Proof. intros (H1 & H2 & H3) [E1 E2] [E3 E4]. unfold slice_match. rewrite E1, E2, E3, E4. auto. Qed.

Lemma add_slice_layer_ok x y u axis id : add_slice_ok x y u axis -> layer_ok req (add_slice_layer x y u axis id).
Proof.
  intros [[Ux Nx] [Uy Ny] [Ur Nr] Rx Ry Rr Hxr Hyr Sx Sy].
  destruct (Nx Rx) as [Ugx Tgx]. destruct (Ny Ry) as [Ugy Tgy]. destruct (Nr Rr) as [Ugr Tgr].
  split; [intros ? ? ? _ _; exact I|]. split.
  - intros vs M G s Hs HD Hin. cbn [ly_py pl_forward add_slice_layer ly_m ml_out ml_F ly_saved ly_id]. unfold add_slice_forward.
    assert (Ex : ov req G M (Val x) = Some (fin (vs 0%nat))) by (apply (Hin 0%nat); cbn; lia).
    assert (Ey : ov req G M (Val y) = Some (fin (vs 1%nat))) by (apply (Hin 1%nat); cbn; lia).
    eapply py_val; [apply (h_copy _ s (Val x) (Val u) (vs 0%nat) (vs 0%nat) Hs Ux Ur)|]; try assumption; [congruence|intros; reflexivity|].
    intros s1 H1. eapply py_val; [apply (h_add_slice 1 1 _ s1 (Val y) (Val u) axis (vs 1%nat) (vs 0%nat) (fun idx => vs 0%nat idx + vs 1%nat (del axis idx)) H1 Uy Ur)|]; try assumption.
    + congruence. + cbn [ov]. rewrite upd_ne by congruence. exact Ey. + apply upd_eq. + intros. ring.
    + intros s2 H2. apply py_nil. eexists. split; [exact H2|]. split; [apply upd_eq|]. split; [exact I|]. split; intros; rewrite !upd_ne by congruence; reflexivity.
  - intros vs M G s Hs HD Hin _. cbn [ly_py pl_backward add_slice_layer ly_m ml_out ly_id]. unfold add_slice_backward.
    eapply (py_grad_always req M G s x (G u)); [assumption| |].
    { cbn [node m_grad]. apply (h_add _ s (Grad u) (Grad x) (G u) (G x)); cbn [ov]; rewrite ?Rx, ?Rr; try assumption; try congruence; try reflexivity.
      - eapply same_trans; [exact Tgr|]. eapply same_trans; [apply same_sym; exact Sx|]. apply same_sym. assumption.
      - intros. ring. }
    intros s1 H1. eapply (py_grad_always req M _ s1 y (fun idx => Rsum (zn (vshape u) axis) (fun k => G u (ins axis k idx)))); [assumption| |].
    { cbn [node m_grad]. apply (h_sum_slice 1 1 (ov req (addg x (G u) G) M) s1 (Grad u) (Grad y) axis (G u) (addg x (G u) G y)); cbn [ov]; rewrite ?Ry, ?Rr; try assumption; try congruence.
      - eapply slice_same; eassumption.
      - rewrite addg_ne by assumption. reflexivity.
      - right. reflexivity.
      - intros. replace (t_shape (A (Grad u))) with (vshape u) by (symmetry; apply Tgr). ring. }
    intros s2 H2. apply py_nil. exists M. eexists. split; [exact H2|]. split; [|split; reflexivity]. intros n idx _. unfold acc, contrib, arity, inp, Nsum, addg.
    cbn [ml_ins ml_dl ml_out List.length seq nth ly_m add_slice_layer]. rewrite !Rsuml_cons, Rsuml_nil. ring.
Qed.
Lemma add_slice_vjp x y u axis id : add_slice_ok x y u axis -> vjp vshape (ly_m (add_slice_layer x y u axis id)).
Proof.
  intros [Nx Ny Nr _ _ _ _ _ [Sx _] (Ha & Sy & _)]. apply tv_vjp. unfold arity, inp. cbn [ly_m add_slice_layer ml_ins ml_out ml_D ml_F ml_dl List.length].
  assert (E1 : vshape x = vshape u) by exact Sx. assert (E2 : vshape y = del axis (vshape u)) by exact Sy.
  assert (P := node_pos u Nr).
  eapply tv_ext; [| | |apply tv_plus; [apply (tv_id 2 (fun j => vshape (nth j [x; y] 0%nat)) (vshape u) _ 0)|apply (tv_gather 2 (fun j => vshape (nth j [x; y] 0%nat)) (vshape u) _ 1 (del axis))]]; try assumption; try lia.
  - intros [|[|j]] Hj; [apply node_pos; assumption|apply node_pos; assumption|lia].
  - reflexivity.
  - intros vs gy [|[|j]] idx _ Hj Hi; [| |lia]; unfold sel; cbn -[pre Rsum] in *; [ring|]. rewrite pre_del; [ring|assumption|exact Ha|rewrite <- E2; assumption].
  - apply node_pos; assumption.
  - intros i Hi. cbn. rewrite E2. apply inb_del; assumption.
Qed.

(** ** Embedding *)
(** The token indices: a tensor of integers whose contents [iv] writing the named tensors does
    not change. *)
Record emb_ok (ix : tensor) (iv : list Z -> Z) (y w : nat) (axis : Z) : Prop := {
  eo_y : node_ok y; eo_w : node_ok w; eo_ry : req y = true; eo_rw : req w = true; eo_ne : w <> y;
  eo_ix : wf_tensor ix; eo_dy : disj ix (A (Val y)); eo_dw : disj ix (A (Grad w));
  eo_iv : forall s, K s -> stored KI s ix /\ forall idx, inb (t_shape ix) idx -> ielem s ix idx = iv idx;
  eo_match : emb_match ix (A (Val w)) (A (Val y)) axis;
  eo_range : forall idx, inb (t_shape ix) idx -> (0 <= iv idx < Z.min (zn (vbase w) 1) (zn (vshape w) 1))%Z
}.
Definition emb_layer (ix : tensor) (iv : list Z -> Z) (y w : nat) (axis : Z) (id : nat) : layer := {|
  ly_m := {| ml_ins := [w]; ml_out := y; ml_F := fun vs idx => vs 0%nat [zn idx axis; iv (del axis idx)]; ml_D := fun _ => True;
             ml_dl := fun _ gy _ k => Rsuml (all_idx (t_shape ix)) (fun i => if (iv i =? zn k 1)%Z then gy (ins axis (zn k 0) i) else 0) |};
  ly_id := id;
  ly_py := {| pl_forward := embedding_forward ix (node req y) (node req w) axis; pl_backward := embedding_backward ix (node req y) (node req w) axis |};
  ly_saved := fun _ _ => True |}.

Lemma emb_layer_ok ix iv y w axis id : emb_ok ix iv y w axis -> layer_ok req (emb_layer ix iv y w axis id).
Proof.
  intros [[Uy Ny] [Uw Nw] Ry Rw Hwy WI D1 D2 HK HM HR]. destruct (Ny Ry) as [Ugy [Ty Ty']]. destruct (Nw Rw) as [Ugw [Tw Tw']].
  assert (Hdel : forall idx, inb (vshape y) idx -> inb (t_shape ix) (del axis idx)).
  { intros idx Hi. eapply del_fits; [apply (proj1 HM)|exact Hi]. }
  split; [intros ? ? ? _ _; exact I|]. split.
  - intros vs M G s Hs HD Hin. cbn [ly_py pl_forward emb_layer ly_m ml_out ml_F ly_saved ly_id]. unfold embedding_forward.
    assert (Ew : ov req G M (Val w) = Some (fin (vs 0%nat))) by (apply (Hin 0%nat); cbn; lia).
    eapply py_val; [apply (h_clear _ s (Val y) (fun _ => 0) Hs Uy); reflexivity|].
    intros s1 H1. destruct (HK s1 (has_K _ _ H1)) as [SI VI].
    eapply py_val; [apply (h_embedding ix _ s1 (Val w) (Val y) axis (vs 0%nat) (fun idx => vs 0%nat [zn idx axis; iv (del axis idx)]) WI D1 SI HM)|]; try assumption.
    + intros idx Hi. rewrite VI by assumption. apply HR. assumption.
    + exact H1.
    + congruence.
    + cbn [ov]. rewrite upd_ne by congruence. exact Ew.
    + intros idx Hi. rewrite VI by (apply Hdel; assumption). reflexivity.
    + intros s2 H2. apply py_nil. eexists. split; [exact H2|]. split; [apply upd_eq|]. split; [exact I|]. split; intros; rewrite !upd_ne by congruence; reflexivity.
  - intros vs M G s Hs HD Hin _. cbn [ly_py pl_backward emb_layer ly_m ml_out ly_id]. unfold embedding_backward.
    destruct (HK s (has_K _ _ Hs)) as [SI VI].
    assert (PI : pos (t_shape ix)) by (apply wf_ps, wf_wft; assumption).
    eapply (py_grad_always req M G s w (fun k => Rsuml (all_idx (t_shape ix)) (fun i => if (iv i =? zn k 1)%Z then G y (ins axis (zn k 0) i) else 0))); [assumption| |].
    { cbn [node m_grad]. apply (h_embedding_backward ix _ s (Grad y) (Grad w) axis (G y) (G w)); cbn [ov]; rewrite ?Ry, ?Rw; try assumption; try congruence; try reflexivity.
      - destruct HM as ((A1 & A2 & A3) & B & C & D). unfold emb_match, slice_match. rewrite Ty, Ty', Tw, Tw'. repeat split; try assumption; apply A1.
      - intros idx Hi. rewrite VI by assumption. rewrite Tw, Tw'. apply HR. assumption.
      - intros c v _. f_equal. apply Rsuml_ext. intros i Hi. apply all_idx_In in Hi; [|assumption]. rewrite VI by assumption. reflexivity. }
    intros s2 H2. apply py_nil. exists M. eexists. split; [exact H2|]. split; [|split; reflexivity]. intros n idx _. unfold acc, contrib, arity, inp, Nsum, addg.
    cbn [ml_ins ml_dl ml_out List.length seq nth ly_m emb_layer]. rewrite !Rsuml_cons, Rsuml_nil. destruct (Nat.eq_dec w n); ring.
Qed.
Lemma emb_vjp ix iv y w axis id : emb_ok ix iv y w axis -> vjp vshape (ly_m (emb_layer ix iv y w axis id)).
Proof.
  intros [Ny Nw _ _ _ WI _ _ _ ((Ha & Sx & _) & L2 & Ev & _) HR]. apply tv_vjp. unfold arity, inp. cbn [ly_m emb_layer ml_ins ml_out ml_D ml_F ml_dl List.length].
  assert (E1 : t_shape ix = del axis (vshape y)) by exact Sx.
  assert (Py := node_pos y Ny). assert (Pw := node_pos w Nw). assert (Ha' : (0 <= axis < zlen (vshape y))%Z) by exact Ha.
  destruct (list2 _ L2) as (a & b & Ew). change (t_shape (A (Val w))) with (vshape w) in Ew. unfold vshape in Ev. fold (vshape y) (vshape w) in Ev.
  change (t_shape (A (Val w))) with (vshape w) in *. rewrite Ew in Ev. change (zn [a; b] 0) with a in Ev.
  change (t_shape (A (Val y))) with (vshape y) in *.
  eapply tv_ext; [| | |apply (tv_gather 1 (fun j => vshape (nth j [w] 0%nat)) (vshape y) _ 0 (fun idx => [zn idx axis; iv (del axis idx)]))]; try assumption; try lia.
  - intros [|j] Hj; [assumption|lia].
  - reflexivity.
  - intros vs gy [|j] idx _ Hj Hi; [|lia]. unfold sel. cbn [Nat.eq_dec nat_rec nat_rect] in *. cbn [nth] in Hi. rewrite Ew in Hi.
    inversion Hi as [|? c ? idx' Hc Hi']; subst. inversion Hi' as [|? v ? idx'' Hv Hn]; subst. inversion Hn; subst. clear Hi Hi' Hn.
    change (zn [c; v] 0) with c. change (zn [c; v] 1) with v. rewrite E1.
    destruct (Nat.eq_dec 0 0) as [_|]; [|congruence]. unfold pre.
    rewrite (Rsuml_ext _ _ (fun i => (fun c' i' => if Z.eq_dec c' c then (if (iv i' =? v)%Z then gy (ins axis c i') else 0) else 0) (zn i axis) (del axis i))).
    2:{ intros i Hi. apply all_idx_In in Hi; [|assumption]. apply inb_zlen in Hi. cbv beta. destruct (list_eq_dec Z.eq_dec [zn i axis; iv (del axis i)] [c; v]) as [El|Hn].
        - inversion El; subst. destruct (Z.eq_dec _ _); [|congruence]. rewrite Z.eqb_refl. rewrite ins_del by lia. reflexivity.
        - destruct (Z.eq_dec _ _); [|reflexivity]. destruct (Z.eqb_spec (iv (del axis i)) v); [congruence|reflexivity]. }
    rewrite (Rsuml_axis (vshape y) axis (fun c' i' => if Z.eq_dec c' c then (if (iv i' =? v)%Z then gy (ins axis c i') else 0) else 0)) by assumption.
    apply Rsuml_ext. intros i Hi. etransitivity; [|apply (AttnSpec.Rsum_delta (zn (vshape y) axis) (fun _ => if (iv i =? v)%Z then gy (ins axis c i) else 0) c); assumption].
    apply Rsum_ext. intros c0 _. destruct (Z.eq_dec c0 c), (Z.eqb_spec c0 c); congruence || reflexivity.
  - intros i Hi. cbn [nth]. rewrite Ew. constructor; [|constructor; [|constructor]].
    + rewrite <- Ev. apply inb_zn; [assumption|]. assumption.
    + specialize (HR (del axis i)). rewrite E1 in HR. specialize (HR (inb_del _ _ _ Ha' Hi)). rewrite Ew in HR. change (zn [a; b] 1) with b in HR. lia.
Qed.
End Layers.
