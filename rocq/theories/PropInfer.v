(** * C74: inference with DeepReLU *)
From Coq Require Import Reals Lra FunctionalExtensionality.
From Verif Require Import Base Spec Geometry Traits TraitsProofs Runtime Ops RealOps TensorSem ElemGeneric Concrete Axis SliceGeo Sequence XReals NdRuns AnyRuns Serial2 OneOut ElemOps SliceOps FiberOps FiberGeo PropFiber MatProofs GemmProofs GemmRuns PropMat RSum AttnSpec MatOps PropDeriv PropElem IntCopy CrossEntropy XTriples HasRuns TapeMath VjpMath Tape PyLayers PyLinear PySimple PyNorm PyAdam PropAdam PyModels BuildEnv GptBuild BuildModel OptBuild GptSpec GptModel GptRun PropGpt GptTrain Segments MixModel SegTrain ReluSpec ReluBuild ReluModel OptState PropRelu.
Local Close Scope Z_scope.
Local Open Scope R_scope.

(** ** Model *)
(** deep_relu_image_classification.py:192-198, 240-: the input is written into the first activation
    (here by a copy from [src], as in pipeline.py:59-60), then forward_async *)
Definition evaluate (src x : tensor) (b : build) : res (list (task XR)) := then_ (copy_async src x) (bm_forward mreq b).

(** ** Forward passes of layers without temporaries, from any contents of the other tensors *)
Section Inf.
Context {E : env} (req : nat -> bool).
Implicit Types (N : smap) (s : store XR) (e vs : nat -> arr).
Definition inf_ok (l : layer) : Prop := forall vs N s, has N s -> (forall j, (j < arity (ly_m l))%nat -> N (Val (inp (ly_m l) j)) = Some (fin (vs j))) ->
  runs_nd (pl_forward (ly_py l)) s (fun s' => exists N', has N' s' /\ N' (Val (ml_out (ly_m l))) = Some (fin (ml_F (ly_m l) vs)) /\
    forall z, z <> Val (ml_out (ly_m l)) -> N' z = N z).

Lemma linear_inf sd tx x y w nd b id sI sK sJ bI bK bJ : linear_ok req sd tx x y w nd b sI sK sJ bI bK bJ ->
  inf_ok (linear_layer req sd tx x y w nd b id sI sK sJ).
Proof.
  intros H.
  destruct (lo_nodes _ _ _ _ _ _ _ _ _ _ _ _ _ _ H) as (Nx & Ny & Nw & Nb). destruct (lo_y _ _ _ _ _ _ _ _ _ _ _ _ _ _ H) as (_ & Hxy & Hwy & Hby).
  destruct (lo_nd _ _ _ _ _ _ _ _ _ _ _ _ _ _ H) as [K1 K2]. pose proof (lo_x _ _ _ _ _ _ _ _ _ _ _ _ _ _ H) as Sx.
  pose proof (lo_w _ _ _ _ _ _ _ _ _ _ _ _ _ _ H) as Sw. pose proof (lo_yy _ _ _ _ _ _ _ _ _ _ _ _ _ _ H) as Sy.
  destruct Nx as [Ux _], Ny as [Uy _], Nw as [Uw _].
  intros vs N s Hs Hin. cbn [ly_py pl_forward linear_layer ly_m ml_out ml_F].
  assert (Ex : N (Val x) = Some (fin (vs 0%nat))) by (apply (Hin 0%nat); cbn; lia).
  assert (Ew : N (Val w) = Some (fin (vs 1%nat))) by (apply (Hin 1%nat); cbn; lia).
  set (mm := fun idx => match sd with SideL => matmul sI sK sJ tx NoTrans (vs 0%nat) (vs 1%nat) idx
      | SideR => matmul sJ sK sI NoTrans tx (vs 1%nat) (vs 0%nat) idx end).
  set (g := match sd with SideL => gemm_async (Fin 1) tx (A (Val x)) NoTrans (A (Val w)) (Fin 0) (A (Val y)) nd 0 false
      | SideR => gemm_async (Fin 1) NoTrans (A (Val w)) tx (A (Val x)) (Fin 0) (A (Val y)) nd 0 false end).
  assert (Eq : linear_forward sd tx (node req x) (node req y) (node req w) nd (option_map (node req) b) = pyseq [g;
     py_opt b (fun n => add_fiber_async (Fin 1) (A (Val n)) (Fin 1) (A (Val y)) (match sd with SideL => (zlen (vshape y) - 1)%Z | SideR => 0%Z end) 0)]).
  { unfold linear_forward, g. destruct sd, b; reflexivity. }
  rewrite Eq.
  assert (Hg : runs_nd g s (has (upd (Val y) (Some (fin mm)) N))).
  { unfold g. destruct sd; destruct Sx as [Sx Sx'], Sw as [Sw Sw'], Sy as [Sy Sy'].
    - apply (h_gemm 1 0 tx NoTrans _ s (Val x) (Val w) (Val y) nd 0 (vs 0%nat) (vs 1%nat) (fun _ => 0) mm sI sK sJ [] bI bK bJ []); try assumption; try congruence; try reflexivity;
        try (app_norm; assumption); [left; reflexivity|].
      intros mi ni bi Hm Hn Hb. unfold mm. rewrite matmul_at by assumption. ring.
    - apply (h_gemm 1 0 NoTrans tx _ s (Val w) (Val x) (Val y) nd 0 (vs 1%nat) (vs 0%nat) (fun _ => 0) mm sJ sK sI [] bJ bK bI []); try assumption; try congruence; try reflexivity;
        try (app_norm; assumption); [left; reflexivity|].
      intros mi ni bi Hm Hn Hb. unfold mm. rewrite matmul_at by assumption. ring. }
  eapply py_cons; [exact Hg|]. clear g Eq Hg. intros s1 H1. cbv beta in H1. destruct b as [n|]; cbn [py_opt].
  - destruct (lin_fiber req _ _ _ _ _ _ _ _ _ _ _ _ _ n (A (Val y)) (A (Val n)) H eq_refl) as [Hf ->]; [split; reflexivity|split; reflexivity|].
    specialize (Hby n eq_refl). destruct (Nb n eq_refl) as [Un _].
    eapply py_cons; [apply (h_add_fiber 1 1 _ s1 (Val n) (Val y) (lin_axis sd sI) 0 (vs 2%nat) mm (lin_F sd tx sI sK sJ true vs) ltac:(lra) H1 Un Uy)|].
    + congruence.
    + assumption.
    + rewrite upd_ne by congruence. apply (Hin 2%nat). cbn. lia.
    + apply upd_eq.
    + intros idx _. unfold lin_F, mm. ring.
    + intros s2 H2. cbv beta in H2. apply py_nil. eexists. split; [exact H2|]. split; [apply upd_eq|]. intros z Hz. rewrite !upd_ne by assumption. reflexivity.
  - apply py_skip. apply py_nil. eexists. split; [exact H1|]. split; [|intros z Hz; rewrite upd_ne by assumption; reflexivity].
    rewrite upd_eq. f_equal. f_equal. apply functional_extensionality. intros idx. unfold lin_F, mm. ring.
Qed.
Lemma relu_inf x y id : act_ok req x y -> inf_ok (act_layer req Relu x y id).
Proof.
  intros [[Ux _] [Uy _] _ Hxy HS] vs N s Hs Hin. cbn [ly_py pl_forward act_layer ly_m ml_out ml_F act_forward].
  eapply py_cons; [apply (h_relu _ s (Val x) (Val y) (vs 0%nat) (fun idx => relu (vs 0%nat idx)) Hs Ux Uy)|]; try assumption; [congruence|apply (Hin 0%nat); cbn; lia|intros; reflexivity|].
  intros s1 H1. cbv beta in H1. apply py_nil. eexists. split; [exact H1|]. split; [apply upd_eq|]. intros z Hz. apply upd_ne. assumption.
Qed.
Lemma inf_list ls : Forall inf_ok ls -> forall e ns N s, ordered (lms ls) ns -> has N s -> knows e N ns ->
  runs_nd (model_forward (map ly_py ls)) s (fun s' => exists N', has N' s' /\ knows (eval (lms ls) e) N' (outs (lms ls) ++ ns) /\
    forall z, (forall n, In n (outs (lms ls)) -> z <> Val n) -> N' z = N z).
Proof.
  unfold model_forward. induction ls as [|l ls IH]; intros HF e ns N s HO Hs Hk.
  - apply py_nil. exists N. split; [exact Hs|]. split; [exact Hk|]. reflexivity.
  - inversion HF as [|? ? H1 H2]; subst. cbn [map ordered] in HO |- *. destruct HO as (O1 & O2 & O3).
    eapply py_cons; [apply (H1 (args (ly_m l) e) N s Hs); intros j Hj; apply Hk; apply O1; assumption|].
    intros s1 (N1 & S1 & V1 & F1). eapply nd_weaken.
    { apply (IH H2 (fire (ly_m l) e) (ml_out (ly_m l) :: ns) N1 s1 O3 S1). intros n Hn. unfold fire. destruct (Nat.eq_dec n (ml_out (ly_m l))) as [->|Hne]; [exact V1|].
      destruct Hn as [Hn|Hn]; [congruence|]. rewrite F1 by congruence. apply Hk. assumption. }
    intros s2 _ (N2 & S2 & K2 & F2). exists N2. split; [exact S2|]. split.
    + cbn [eval]. intros n Hn. apply K2. change (In n (ml_out (ly_m l) :: outs (lms ls) ++ ns)) in Hn. apply in_or_app.
      destruct Hn as [<-|Hn]; [right; left; reflexivity|]. apply in_app_or in Hn as [Hn|Hn]; [left; exact Hn|right; right; exact Hn].
    + intros z Hz. rewrite F2, F1; [reflexivity|apply Hz; left; reflexivity|intros n Hn; apply Hz; right; exact Hn].
Qed.
End Inf.

(** ** The environment that remembers what lies outside of the model's tensors *)
Definition kenv (b : build) (H : benv_ok b []) (s0 : store XR) : env.
Proof.
  refine {| A := @A (benv b [] H); U := @U (benv b [] H); K := fun s => forall k, (forall v t, b_mem b v = Some t -> ~ In k (tile_handles t)) -> s k = s0 k;
    UW := @UW (benv b [] H); UD := @UD (benv b [] H) |}.
  intros v s s' Uv _ Hf HK k Hk. rewrite <- (HK k Hk). apply Hf. intros t [<-|[]]. destruct (bU_inv b v Uv) as (t & Et & Eb).
  cbn [A benv]. rewrite Eb. exact (Hk v t Et).
Defined.

(** ** Specification *)
(** Of the tensors of the model (and of the loss and the optimizer, if [b] has them) only the values
    of activations change, and nothing outside of them. *)
Definition only_activations (b : build) (s s' : store XR) : Prop :=
  (forall v t idx, b_mem b v = Some t -> (forall m, In m (b_acts b) -> v <> Val m) -> inb (t_shape t) idx -> elem s' t idx = elem s t idx) /\
  (forall k, (forall v t, b_mem b v = Some t -> ~ In k (tile_handles t)) -> s' k = s k).

(** ** The forward pass of DeepReLU *)
Section Fwd.
Variables (sd : side) (sI bI din dinb : list Z) (add addb V : Z) (bias : bool) (x : tensor) (n : nat) (lo : Z) (b : build).
Hypothesis HG : rdims sI bI din dinb add addb V.
Hypothesis HB : rbuilt sd sI bI din dinb add addb V bias x n lo b.
Hypothesis Hx : t_shape x = lin_x sd sI din /\ t_base x = lin_x sd bI dinb.
Notation bb := (if bias then 1 else 0)%nat.
Notation rf := (rfirst bias).
Notation out k := (rf k + 1 + bb)%nat.
Notation ps := (r_params bias n).
Notation np := ((if bias then 2 else 1) * S n)%nat.
Lemma fwd_benv : benv_ok b [].
Proof. destruct (rb_inv _ _ _ _ _ _ _ _ _ _ _ _ _ HB) as [i1 i2 i3 i4 i5]. split; [exact i2|exact i4| |]; intros k; [|intros v t]; intros []. Qed.
Notation ls := (r_layers sd sI din add V bias n b [] fwd_benv).
Notation E1 := (benv b [] fwd_benv).
Lemma fwd_layers s0 : Forall (@inf_ok (kenv b fwd_benv s0)) ls.
Proof.
  assert (TN : forall m, @node_ok E1 mreq m -> @node_ok (kenv b fwd_benv s0) mreq m) by (intros m [U1 U2]; split; [exact U1|exact U2]).
  apply Forall_forall. intros l Hl. apply in_rlayers in Hl as [(k & Hk & ->)|(k & Hk & ->)].
  - destruct (rlin_ok sd sI bI din dinb add addb V bias x n lo b [] HG HB fwd_benv Hx k Hk) as [(q1 & q1' & q1'' & q1b) q2 q3 q4 q5 q6 q7 q8].
    refine (@linear_inf (kenv b fwd_benv s0) mreq sd NoTrans _ _ _ _ _ _ sI _ _ bI _ _ _). split; [|exact q2|exact q3|exact q4|exact q5|exact q6|exact q7|exact q8].
    split; [apply TN; exact q1|]. split; [apply TN; exact q1'|]. split; [apply TN; exact q1''|]. intros m Hm. apply TN. exact (q1b m Hm).
  - destruct (ract_ok sd sI bI din dinb add addb V bias x n lo b [] HB fwd_benv k Hk) as [q1 q2 q3 q4 q5].
    refine (@relu_inf (kenv b fwd_benv s0) mreq _ _ _ _). split; [apply TN; exact q1|apply TN; exact q2|exact q3|exact q4|exact q5].
Qed.

Lemma fwd_runs X P (s : store XR) : (forall v t, b_mem b v = Some t -> stored KF s t) ->
  (forall idx, inb (t_shape x) idx -> elem s x idx = Fin (X idx)) ->
  (forall j idx, (j < np)%nat -> inb (t_shape (rpval b j)) idx -> elem s (rpval b j) idx = Fin (P j idx)) ->
  runs_nd (bm_forward mreq b) s (fun s' =>
    (forall t v, inb sI t -> (0 <= v < V)%Z ->
      elem s' (PyModels.bt b (Val (out_node b))) (match sd with SideL => t ++ [v] | SideR => v :: t end) = Fin (preact sd din add bias X P n t v)) /\
    (forall idx, inb (t_shape x) idx -> elem s' x idx = Fin (X idx)) /\ only_activations b s s').
Proof.
  intros HA HX HP.
  assert (EP : bm_forward mreq b = model_forward (map ly_py ls)).
  { unfold bm_forward. rewrite <- (rsegs_py sd sI bI din dinb add addb V bias x n lo b [] HB fwd_benv). unfold r_segs. rewrite map_map. reflexivity. }
  rewrite EP. set (e := penv (0%nat :: ps) (xp X P)).
  set (N := fun z => match z with Val m => if in_dec Nat.eq_dec m (0%nat :: ps) then Some (fin (e m)) else Some (fun idx => elem s (PyModels.bt b z) idx) | _ => Some (fun idx => elem s (PyModels.bt b z) idx) end).
  assert (PD : NoDup (0%nat :: ps)) by exact (rparams_nodup _ _ _ _ _ _ _ _ _ _ _ _ _ HB).
  assert (EB : bm_params b = ps) by exact (r_params_eq _ _ _ _ _ _ _ _ _ _ _ _ _ HB).
  assert (PL : List.length ps = np) by exact (rparams_len _ _ _ _ _ _ _ _ _ _ _ _ _ HB).
  assert (E0 : PyModels.bt b (Val 0) = x) by (unfold PyModels.bt; rewrite (rb_x _ _ _ _ _ _ _ _ _ _ _ _ _ HB); reflexivity).
  assert (EN : forall z t, b_mem b z = Some t -> PyModels.bt b z = t) by (intros z t Ez; unfold PyModels.bt; rewrite Ez; reflexivity).
  assert (XV : forall m, In m (0%nat :: ps) -> forall idx, inb (t_shape (PyModels.bt b (Val m))) idx -> elem s (PyModels.bt b (Val m)) idx = Fin (e m idx)).
  { intros m [<-|Hm] idx Hi.
    - rewrite E0 in *. rewrite HX by assumption. reflexivity.
    - destruct (nth_index _ _ Hm) as [I1 I2]. rewrite PL in I2. specialize (HP _ idx I2). unfold rpval in HP. rewrite EB, I1 in HP. rewrite HP by assumption.
      unfold e, penv. cbn [index]. destruct (Nat.eq_dec 0%nat m) as [<-|_]; [inversion PD; contradiction|reflexivity]. }
  assert (HN : @has (kenv b fwd_benv s) N s).
  { split; [intros k _; reflexivity|]. intros z Uz. destruct (bU_inv b z Uz) as (t & Et & Eb).
    split; [change (stored KF s (PyModels.bt b z)); rewrite Eb; exact (HA z t Et)|]. intros f Hf idx Hi. change (inb (t_shape (PyModels.bt b z)) idx) in Hi. change (elem s (PyModels.bt b z) idx = f idx).
    unfold N in Hf. destruct z as [m|m|k i]; [|injection Hf as <-; reflexivity..]. destruct (in_dec Nat.eq_dec m (0%nat :: ps)) as [Hm|]; injection Hf as <-; [|reflexivity]. exact (XV m Hm idx Hi). }
  eapply nd_weaken.
  { apply (@inf_list (kenv b fwd_benv s) ls (fwd_layers s) e (0%nat :: ps) N s); [exact (r_ordered sd sI bI din dinb add addb V bias x n lo b [] HB fwd_benv Hx)|exact HN|].
    intros m Hm. unfold N. destruct (in_dec Nat.eq_dec m (0%nat :: ps)); [reflexivity|contradiction]. }
  intros s' _ (N' & HN' & HK & HF). assert (EO : outs (lms ls) = r_outs bias n) by apply r_outs_eq. rewrite EO in *.
  destruct HN' as [HKk HV].
  assert (RV : forall m f, bU b (Val m) -> N' (Val m) = Some f -> forall idx, inb (t_shape (PyModels.bt b (Val m))) idx -> elem s' (PyModels.bt b (Val m)) idx = f idx).
  { intros m f Um Ef idx Hi. destruct (HV (Val m) Um) as [_ HV']. exact (HV' f Ef idx Hi). }
  split; [|split; [|split]].
  - intros t v Ht Hv. rewrite (rout_eq _ _ _ _ _ _ _ _ _ _ _ _ _ HB).
    pose proof (y_isn sd sI bI din dinb add addb V bias x n lo b [] HB fwd_benv n (le_n n)) as (Ny & Sy & _). unfold wid in Sy. rewrite Nat.eqb_refl in Sy.
    assert (Hi : inb (lin_y sd sI [V]) (match sd with SideL => t ++ [v] | SideR => v :: t end)).
    { assert (Hv1 : inb [V] [v]) by (constructor; [exact Hv|constructor]). clear - Ht Hv1 Hv. destruct sd; cbn [lin_y]; [apply Forall2_app; assumption|apply (Forall2_app Hv1 Ht)]. }
    rewrite (RV (out n) _ (proj1 Ny) (HK (out n) ltac:(apply in_or_app; left; apply in_routs; right; reflexivity))).
    + unfold fin. f_equal. pose proof (v_pre sd sI bI din dinb add addb V bias x n lo b [] HG HB fwd_benv Hx X P n t v (le_n n) Ht) as Q. unfold wid in Q. rewrite Nat.eqb_refl in Q. specialize (Q Hv).
      rewrite <- Q. unfold at_, rval. fold e. generalize (eval (lms ls) e (out n)). clear. intros f. destruct sd; reflexivity.
    + change (inb (t_shape (PyModels.bt b (Val (out n)))) (match sd with SideL => t ++ [v] | SideR => v :: t end)). assert (Sy' : t_shape (PyModels.bt b (Val (out n))) = lin_y sd sI [V]) by exact Sy. rewrite Sy'. exact Hi.
  - intros idx Hi. rewrite <- E0 in Hi |- *.
    assert (U0 : bU b (Val 0)) by (unfold bU; rewrite (rb_x _ _ _ _ _ _ _ _ _ _ _ _ _ HB); discriminate).
    rewrite (RV 0%nat (fin (e 0%nat)) U0); [reflexivity| |exact Hi].
    rewrite HF; [unfold N; destruct (in_dec Nat.eq_dec 0%nat (0%nat :: ps)) as [|C]; [reflexivity|exfalso; apply C; left; reflexivity]|].
    intros m Hm C. injection C as <-. apply (rparams_outs _ _ _ _ _ _ _ _ _ _ _ _ _ HB 0%nat); [left; reflexivity|exact Hm].
  - intros z t idx Ez Ha Hi. assert (Uz : bU b z) by (unfold bU; congruence). destruct (HV z Uz) as [_ HV']. rewrite <- (EN z t Ez) in *.
    rewrite (rb_acts _ _ _ _ _ _ _ _ _ _ _ _ _ HB) in Ha.
    assert (Fz : N' z = N z) by (apply HF; intros m Hm; apply Ha; right; exact Hm).
    assert (Nz : exists f, N z = Some f /\ forall idx, inb (t_shape (PyModels.bt b z)) idx -> elem s (PyModels.bt b z) idx = f idx).
    { unfold N. destruct z as [m|m|k i]; [|eexists; split; [reflexivity|reflexivity]..]. destruct (in_dec Nat.eq_dec m (0%nat :: ps)) as [Hm|]; eexists; (split; [reflexivity|]); [exact (XV m Hm)|reflexivity]. }
    destruct Nz as (f & Ef & Vf). rewrite Ef in Fz. rewrite (Vf idx Hi). exact (HV' f Fz idx Hi).
  - exact HKk.
Qed.
End Fwd.
