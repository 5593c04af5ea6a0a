(** * What the constructors allocate *)
From Coq Require Import Reals Lra.
From Verif Require Import Base Spec Geometry Traits TraitsProofs Runtime Ops RealOps TensorSem ElemGeneric Concrete Axis SliceGeo XReals MatOps XTriples HasRuns PyLayers PyModels.
Local Close Scope R_scope.
Local Open Scope list_scope.
Local Open Scope Z_scope.

(** [r] returns normally, with a result satisfying [P] *)
Definition okp {X} (r : res X) (P : X -> Prop) : Prop := match r with Ok a => P a | _ => False end.
Lemma okp_bind {X Y} (r : res X) (f : X -> res Y) P Q : okp r P -> (forall a, P a -> okp (f a) Q) -> okp (bind r f) Q.
Proof. destruct r; cbn; auto; contradiction. Qed.
Lemma okp_weaken {X} (r : res X) (P Q : X -> Prop) : okp r P -> (forall a, P a -> Q a) -> okp r Q.
Proof. destruct r; cbn; auto. Qed.
Lemma okp_inv {X} (r : res X) P : okp r P -> exists a, r = Ok a /\ P a.
Proof. destruct r; cbn; [eauto|contradiction|contradiction]. Qed.

(** a tensor made with these dimensions *)
Definition fit (sh ba : list Z) : Prop := zlen ba = zlen sh /\ pos sh /\ pos ba.
Definition tens (t : tensor) (sh ba : list Z) : Prop := t_shape t = sh /\ t_base t = ba /\ zlen (tile_distr t) = prodZ (gridZ sh ba).
Definition hast (b : build) (x : gvar) (sh ba : list Z) : Prop := exists t, b_mem b x = Some t /\ tens t sh ba.
Definition hasn (b : build) (n : nat) (tr : list Z * list Z) : Prop := hast b (Val n) (fst tr) (snd tr) /\ hast b (Grad n) (fst tr) (snd tr).
Definition ext (b b' : build) : Prop := forall x t, b_mem b x = Some t -> b_mem b' x = Some t.
Lemma ext_trans a b c : ext a b -> ext b c -> ext a c.
Proof. unfold ext; auto. Qed.
Lemma ext_refl a : ext a a.
Proof. unfold ext; auto. Qed.
Lemma hast_ext b b' x sh ba : ext b b' -> hast b x sh ba -> hast b' x sh ba.
Proof. intros H (t & H1 & H2). exists t. auto. Qed.
Lemma hasn_ext b b' n tr : ext b b' -> hasn b n tr -> hasn b' n tr.
Proof. intros H [H1 H2]. split; eapply hast_ext; eassumption. Qed.
Lemma hast_shape b n sh ba : hast b (Val n) sh ba -> bshape b n = sh /\ bbase b n = ba /\ zlen (bdistr b n) = prodZ (gridZ sh ba).
Proof. intros (t & H1 & H2 & H3 & H4). unfold bshape, bbase, bdistr, bt. rewrite H1. auto. Qed.

(** Named tensors are well-formed, use handles between [lo] and the next free one, and share none. *)
Record binv (lo : Z) (b : build) : Prop := {
  bi_lo : lo <= b_next b;
  bi_wf : forall x t, b_mem b x = Some t -> wf_tensor t;
  bi_rng : forall x t h, b_mem b x = Some t -> In h (tile_handles t) -> lo <= h < b_next b;
  bi_disj : forall x y t u, b_mem b x = Some t -> b_mem b y = Some u -> x <> y -> disj t u;
  bi_fresh : forall n, (b_n b <= n)%nat -> b_mem b (Val n) = None /\ b_mem b (Grad n) = None
}.

Lemma mk_ok lo sh ba distr b : fit sh ba -> zlen (distr (tn_of sh ba)) = prodZ (gridZ sh ba) -> lo <= b_next b ->
  okp (mk_tensor sh ba distr b) (fun '(t, b') => wf_tensor t /\ tens t sh ba /\ (forall h, In h (tile_handles t) -> b_next b <= h < b_next b') /\
    b_mem b' = b_mem b /\ b_next b <= b_next b' /\ b_n b' = b_n b /\ b_layers b' = b_layers b /\ b_acts b' = b_acts b).
Proof.
  intros (H1 & H2 & H3) Hd Hlo. unfold mk_tensor. rewrite TensorTraits_new_ok by assumption. cbn [bind].
  rewrite Tensor_new_ok by assumption. cbn [bind okp].
  assert (W : wf_tensor {| tr := tn_of sh ba; tile_traits := ztab (prodZ (gridZ sh ba)) (fun i => tt_of (tshape sh ba (unoff (gridZ sh ba) i)));
    tile_handles := ztab (prodZ (gridZ sh ba)) (fun i => b_next b + i); tile_distr := distr (tn_of sh ba) |}).
  { apply (Tensor_new_wf (tn_of sh ba) sh ba (distr (tn_of sh ba)) (b_next b) _ _ (TensorTraits_new_ok sh ba H1 H2 H3) (Tensor_new_ok sh ba (distr (tn_of sh ba)) (b_next b) H1 H2 H3 Hd)). }
  assert (P : 0 < prodZ (gridZ sh ba)) by (apply prodZ_pos, gridZ_pos; auto; unfold zlen in H1; lia).
  split; [exact W|]. split; [split; [reflexivity|split; [reflexivity|exact Hd]]|]. cbn [b_mem b_next b_n b_layers b_acts].
  change (t_ntiles _) with (prodZ (gridZ sh ba)).
  split; [|split; [reflexivity|split; [lia|split; [reflexivity|split; reflexivity]]]].
  intros h Hh. cbn [tile_handles] in Hh. apply In_ztab in Hh as (i & Hi & ->). lia.
Qed.
Lemma zeros_len sh ba : fit sh ba -> zlen (zeros (tn_of sh ba)) = prodZ (gridZ sh ba).
Proof.
  intros (H1 & H2 & H3). unfold zeros. change (tt_nelems (tn_grid (tn_of sh ba))) with (prodZ (gridZ sh ba)).
  assert (0 < prodZ (gridZ sh ba)) by (apply prodZ_pos, gridZ_pos; auto; unfold zlen in H1; lia).
  unfold zrep, zlen. rewrite repeat_length. lia.
Qed.

(** One more named tensor. *)
Record added (lo : Z) (x : gvar) (b b' : build) : Prop := {
  ad_lo : lo <= b_next b';
  ad_wf : forall y t, b_mem b' y = Some t -> wf_tensor t;
  ad_rng : forall y t h, b_mem b' y = Some t -> In h (tile_handles t) -> lo <= h < b_next b';
  ad_disj : forall y z t u, b_mem b' y = Some t -> b_mem b' z = Some u -> y <> z -> disj t u;
  ad_ext : ext b b';
  ad_other : forall y, y <> x -> b_mem b' y = b_mem b y;
  ad_n : b_n b' = b_n b; ad_layers : b_layers b' = b_layers b; ad_acts : b_acts b' = b_acts b;
  ad_new : forall t h, b_mem b' x = Some t -> In h (tile_handles t) -> b_next b <= h;
  ad_mono : b_next b <= b_next b'
}.
Lemma alloc_ok lo x sh ba distr b :
  lo <= b_next b -> (forall x t, b_mem b x = Some t -> wf_tensor t) -> (forall x t h, b_mem b x = Some t -> In h (tile_handles t) -> lo <= h < b_next b) ->
  (forall x y t u, b_mem b x = Some t -> b_mem b y = Some u -> x <> y -> disj t u) ->
  b_mem b x = None -> fit sh ba -> zlen (distr (tn_of sh ba)) = prodZ (gridZ sh ba) ->
  okp (alloc x sh ba distr b) (fun b' => added lo x b b' /\ hast b' x sh ba).
Proof.
  intros Hlo Hw Hr Hd Hx Hf Hl. unfold alloc. eapply okp_bind; [apply (mk_ok lo); eassumption|].
  intros [t b1] (W & T & R & M & N & E1 & E2 & E3). cbn [okp].
  assert (MS : forall y u, b_mem (mkB (mem_set (b_mem b1) x t) (b_next b1) (b_n b1) (b_layers b1) (b_acts b1)) y = Some u -> (y = x /\ u = t) \/ (y <> x /\ b_mem b y = Some u)).
  { intros y u. cbn [b_mem]. unfold mem_set. rewrite M. destruct (gvar_dec y x); intros H; [left|right; auto]. split; [assumption|congruence]. }
  split; [split|]; cbn [b_next b_n b_layers b_acts].
  - lia.
  - intros y u Hu. destruct (MS y u Hu) as [[-> ->]|[_ Hy]]; [assumption|eauto].
  - intros y u h Hu Hh. destruct (MS y u Hu) as [[-> ->]|[_ Hy]]; [specialize (R h Hh); lia|]. specialize (Hr _ _ _ Hy Hh). lia.
  - intros y z u v Hu Hv Hn. destruct (MS y u Hu) as [[-> ->]|[N1 Hy]], (MS z v Hv) as [[-> ->]|[N2 Hz]]; [congruence| | |eauto].
    + intros h H1 H2. specialize (R h H1). specialize (Hr _ _ _ Hz H2). lia.
    + intros h H1 H2. specialize (R h H2). specialize (Hr _ _ _ Hy H1). lia.
  - intros y u Hy. cbn [b_mem]. unfold mem_set. rewrite M. destruct (gvar_dec y x); [congruence|assumption].
  - intros y Hy. cbn [b_mem]. unfold mem_set. rewrite M. destruct (gvar_dec y x); [contradiction|reflexivity].
  - assumption. - assumption. - assumption.
  - intros u h Hu Hh. destruct (MS x u Hu) as [[_ ->]|[C _]]; [apply R in Hh; lia|congruence].
  - lia.
  - exists t. split; [|assumption]. cbn [b_mem]. unfold mem_set. destruct (gvar_dec x x); congruence.
Qed.

(** Objects numbered from [b_n b] with the dimensions [trs], temporaries only of layer [l]. *)
Record made (lo : Z) (b : build) (trs : list (list Z * list Z)) (l : nat) (b' : build) : Prop := {
  ma_inv : binv lo b';
  ma_ext : ext b b';
  ma_n : b_n b' = (b_n b + List.length trs)%nat;
  ma_layers : b_layers b' = b_layers b; ma_acts : b_acts b' = b_acts b;
  ma_tmp : forall k i, k <> l -> b_mem b' (Tmp k i) = b_mem b (Tmp k i);
  ma_nodes : forall i tr, nth_error trs i = Some tr -> hasn b' (b_n b + i) tr
}.
Lemma made_refl lo b l : binv lo b -> made lo b [] l b.
Proof. intros H. split; auto. - apply ext_refl. - cbn. lia. - intros [|i] tr Hi; discriminate. Qed.
Lemma made_trans lo b b1 b2 l1 l2 l : made lo b l1 l b1 -> made lo b1 l2 l b2 -> made lo b (l1 ++ l2) l b2.
Proof.
  intros [A1 A2 A3 A4 A5 A6 A7] [B1 B2 B3 B4 B5 B6 B7]. split; auto.
  - eapply ext_trans; eassumption.
  - rewrite app_length. lia.
  - congruence. - congruence.
  - intros. rewrite B6 by assumption. auto.
  - intros i tr Hi. destruct (Nat.lt_ge_cases i (List.length l1)) as [Hl|Hl].
    + rewrite nth_error_app1 in Hi by assumption. eapply hasn_ext; [exact B2|]. auto.
    + rewrite nth_error_app2 in Hi by assumption. specialize (B7 _ _ Hi). rewrite A3 in B7. replace (b_n b + i)%nat with (b_n b + List.length l1 + (i - List.length l1))%nat by lia. assumption.
Qed.
Lemma moments_ok lo l sh ba distr b : binv lo b -> fit sh ba -> zlen (distr (tn_of sh ba)) = prodZ (gridZ sh ba) ->
  okp (moments_new sh ba distr b) (fun '(n, b') => n = b_n b /\ made lo b [(sh, ba)] l b' /\ (forall k i, b_mem b' (Tmp k i) = b_mem b (Tmp k i))).
Proof.
  intros [I1 I2 I3 I4 I5] Hf Hl. unfold moments_new.
  eapply okp_bind; [apply (alloc_ok lo (Val (b_n b))); try eassumption; apply I5; lia|]. intros b1 [[A1 A2 A3 A4 A5 A6 A7 A8 A9] T1]. cbv beta.
  eapply okp_bind; [apply (alloc_ok lo (Grad (b_n b)) sh ba distr b1); try eassumption; rewrite A6 by discriminate; apply I5; lia|].
  intros b2 [[B1 B2 B3 B4 B5 B6 B7 B8 B9] T2]. cbn [okp]. split; [reflexivity|]. split; [split|]; cbn [b_mem b_next b_n b_layers b_acts].
  - split; cbn [b_mem b_next b_n]; try assumption. intros n Hn. rewrite !B6 by (try discriminate; intros C; inversion C; lia). rewrite !A6 by (try discriminate; intros C; inversion C; lia).
    apply I5. lia.
  - eapply ext_trans; [exact A5|exact B5].
  - cbn. lia.
  - congruence. - congruence.
  - intros k i _. rewrite B6, A6 by discriminate. reflexivity.
  - intros [|i] tr Hi; [|destruct i; discriminate]. inversion Hi; subst. rewrite Nat.add_0_r. split; [|exact T2]. eapply hast_ext; [exact B5|exact T1].
  - intros k i. rewrite B6, A6 by discriminate. reflexivity.
Qed.
Lemma tmp_ok lo i sh ba distr b l : binv lo b -> b_mem b (Tmp l i) = None -> fit sh ba -> zlen (distr (tn_of sh ba)) = prodZ (gridZ sh ba) ->
  okp (alloc (Tmp l i) sh ba distr b) (fun b' => made lo b [] l b' /\ hast b' (Tmp l i) sh ba /\ (forall j, j <> i -> b_mem b' (Tmp l j) = b_mem b (Tmp l j))).
Proof.
  intros [I1 I2 I3 I4 I5] Hx Hf Hl. eapply okp_weaken; [apply (alloc_ok lo (Tmp l i)); eassumption|].
  intros b1 [[A1 A2 A3 A4 A5 A6 A7 A8 A9] T1]. split; [split|split]; auto.
  - split; auto. intros n Hn. rewrite !A6 by discriminate. apply I5. lia.
  - cbn. lia.
  - intros k j Hk. apply A6. congruence.
  - intros [|j] tr Hj; discriminate.
  - intros j Hj. apply A6. congruence.
Qed.

(** ** The layers *)
Lemma prodZ_grid_pos sh ba : fit sh ba -> 0 < prodZ (gridZ sh ba).
Proof. intros (H1 & H2 & H3). apply prodZ_pos, gridZ_pos; auto. unfold zlen in H1. lia. Qed.

(** linear, NoTrans: x is sI ++ sK on side L, sK ++ sI on side R *)
Definition lin_w {X} (sd : side) (k j : list X) := match sd with SideL => k ++ j | SideR => j ++ k end.
Definition lin_x {X} (sd : side) (i k : list X) := match sd with SideL => i ++ k | SideR => k ++ i end.
Definition lin_y {X} (sd : side) (i j : list X) := match sd with SideL => i ++ j | SideR => j ++ i end.
Lemma gen_linear_ok lo l x sd (sI bI sK bK sJ bJ : list Z) (bias : bool) b :
  binv lo b -> hast b (Val x) (lin_x sd sI sK) (lin_x sd bI bK) -> fit sI bI -> fit sK bK -> fit sJ bJ -> 0 < zlen sK -> (bias = true -> zlen sJ = 1) ->
  okp (gen_linear x sd NoTrans (zlen sK) sJ bJ bias b) (fun '(d, b') =>
    d = LLinear sd NoTrans x (b_n b + (if bias then 2 else 1)) (b_n b) (zlen sK) (if bias then Some (b_n b + 1)%nat else None) /\
    made lo b ((lin_w sd sK sJ, lin_w sd bK bJ) :: (if bias then [(sJ, bJ)] else []) ++ [(lin_y sd sI sJ, lin_y sd bI bJ)]) l b' /\
    (forall k i, b_mem b' (Tmp k i) = b_mem b (Tmp k i))).
Proof.
  intros Hb Hx FI FK FJ Hk Hj. destruct (hast_shape _ _ _ _ Hx) as (E1 & E2 & _). unfold gen_linear. rewrite E1, E2.
  assert (FA : forall (s1 b1 s2 b2 : list Z), fit s1 b1 -> fit s2 b2 -> fit (s1 ++ s2) (b1 ++ b2)).
  { intros s1 b1 s2 b2 (P1 & P2 & P3) (Q1 & Q2 & Q3). split; [rewrite !zlen_app; lia|]. split; apply Forall_app; split; assumption. }
  unfold throw_if at 1. destruct (Z.leb_spec (zlen sK) 0); [lia|].
  assert (LK : zlen sK = zlen bK) by (destruct FK; lia).
  assert (Ew : forall (i k j : list Z), zlen k = zlen sK -> lin_cut sd NoTrans (zlen sK) (lin_x sd i k) j = (lin_w sd k j, lin_y sd i j)).
  { intros i k j Hlen. rewrite <- Hlen. unfold lin_cut, lin_x, lin_w, lin_y, sl_last, sl_butlast, sl_to, sl_from, zlen. rewrite !Nat2Z.id. destruct sd.
    - rewrite app_length. replace (List.length i + List.length k - List.length k)%nat with (List.length i) by lia.
      rewrite skipn_app, skipn_all, Nat.sub_diag, firstn_app, firstn_all, Nat.sub_diag. cbn. rewrite app_nil_r. reflexivity.
    - rewrite skipn_app, skipn_all, Nat.sub_diag, firstn_app, firstn_all, Nat.sub_diag. cbn. rewrite app_nil_r. reflexivity. }
  rewrite (Ew sI sK sJ eq_refl), (Ew bI bK bJ (eq_sym LK)).
  assert (FW : fit (lin_w sd sK sJ) (lin_w sd bK bJ)) by (unfold lin_w; destruct sd; apply FA; assumption).
  assert (FY : fit (lin_y sd sI sJ) (lin_y sd bI bJ)) by (unfold lin_y; destruct sd; apply FA; assumption).
  eapply okp_bind; [apply (moments_ok lo l); [assumption|exact FW|apply zeros_len; exact FW]|]. intros [w b1] (-> & M1 & T1).
  destruct bias.
  - eapply okp_bind.
    + unfold throw_if. rewrite Hj by reflexivity. cbn [Z.ltb Z.compare Pos.compare Pos.compare_cont].
      eapply okp_bind; [apply (moments_ok lo l); [apply (ma_inv _ _ _ _ _ M1)|exact FJ|apply zeros_len; exact FJ]|]. intros [o b2] (-> & M2 & T2).
      cbn [okp]. instantiate (1 := fun '(o, b2) => o = Some (b_n b1) /\ made lo b1 [(sJ, bJ)] l b2 /\ (forall k i, b_mem b2 (Tmp k i) = b_mem b1 (Tmp k i))). cbv beta iota. auto.
    + intros [o b2] (-> & M2 & T2). eapply okp_bind; [apply (moments_ok lo l); [apply (ma_inv _ _ _ _ _ M2)|exact FY|apply zeros_len; exact FY]|]. intros [y b3] (-> & M3 & T3).
      cbn [okp]. split; [|split].
      * rewrite (ma_n _ _ _ _ _ M2), (ma_n _ _ _ _ _ M1). cbn [List.length]. replace (b_n b + 1 + 1)%nat with (b_n b + 2)%nat by lia. reflexivity.
      * apply (made_trans lo b b1 b3 [_] [(sJ, bJ); _] l M1). apply (made_trans lo b1 b2 b3 [_] [_] l M2 M3).
      * intros. rewrite T3, T2, T1. reflexivity.
  - eapply okp_bind; [instantiate (1 := fun '(o, b2) => o = None /\ b2 = b1); cbn; auto|]. intros [o b2] (-> & ->).
    eapply okp_bind; [apply (moments_ok lo l); [apply (ma_inv _ _ _ _ _ M1)|exact FY|apply zeros_len; exact FY]|]. intros [y b3] (-> & M3 & T3).
    cbn [okp]. split; [|split].
    + rewrite (ma_n _ _ _ _ _ M1). reflexivity.
    + apply (made_trans lo b b1 b3 [_] [_] l M1 M3).
    + intros. rewrite T3, T1. reflexivity.
Qed.
Lemma gen_act_ok lo l x f sh ba b : binv lo b -> hast b (Val x) sh ba -> fit sh ba ->
  okp (gen_act x f b) (fun '(d, b') => d = LAct f x (b_n b) /\ made lo b [(sh, ba)] l b' /\ (forall k i, b_mem b' (Tmp k i) = b_mem b (Tmp k i))).
Proof.
  intros Hb Hx Hf. destruct (hast_shape _ _ _ _ Hx) as (E1 & E2 & E3). unfold gen_act. rewrite E1, E2.
  eapply okp_bind; [apply (moments_ok lo l); assumption|]. intros [y b1] (-> & M1 & T1). cbn [okp]. auto.
Qed.
Lemma gen_add_ok lo l x y sh ba b : binv lo b -> hast b (Val y) sh ba -> fit sh ba ->
  okp (gen_add x y b) (fun '(d, b') => d = LAdd x y (b_n b) /\ made lo b [(sh, ba)] l b' /\ (forall k i, b_mem b' (Tmp k i) = b_mem b (Tmp k i))).
Proof.
  intros Hb Hx Hf. destruct (hast_shape _ _ _ _ Hx) as (E1 & E2 & E3). unfold gen_add. rewrite E1, E2.
  eapply okp_bind; [apply (moments_ok lo l); try assumption; apply zeros_len; assumption|]. intros [r b1] (-> & M1 & T1). cbn [okp]. auto.
Qed.
Lemma gen_add_slice_ok lo l x y axis sh ba b : binv lo b -> hast b (Val x) sh ba -> fit sh ba ->
  okp (gen_add_slice x y axis b) (fun '(d, b') => d = LAddSlice x y (b_n b) axis /\ made lo b [(sh, ba)] l b' /\ (forall k i, b_mem b' (Tmp k i) = b_mem b (Tmp k i))).
Proof.
  intros Hb Hx Hf. destruct (hast_shape _ _ _ _ Hx) as (E1 & E2 & E3). unfold gen_add_slice. rewrite E1, E2.
  eapply okp_bind; [apply (moments_ok lo l); assumption|]. intros [y1 b1] (-> & M1 & T1). cbn [okp]. auto.
Qed.
Lemma gen_embedding_ok lo l ix vocab emb yt wt b : binv lo b -> fit (t_shape ix) (t_base ix) -> 0 < vocab -> 0 < emb -> 0 < yt -> 0 < wt -> (wt | yt) ->
  okp (gen_embedding ix 0 vocab emb yt wt b) (fun '(d, b') => d = LEmb ix (b_n b + 1) (b_n b) 0 /\
    made lo b [([emb; vocab], [wt; vocab]); (emb :: t_shape ix, yt :: t_base ix)] l b' /\ (forall k i, b_mem b' (Tmp k i) = b_mem b (Tmp k i))).
Proof.
  intros Hb (F1 & F2 & F3) Hv He Hy Hw Hd. unfold gen_embedding. rewrite (proj2 (Z.mod_divide yt wt ltac:(lia)) Hd). cbn [Z.eqb negb throw_if].
  assert (FW : fit [emb; vocab] [wt; vocab]) by (split; [reflexivity|split; repeat constructor; assumption]).
  eapply okp_bind; [apply (moments_ok lo l); [assumption|exact FW|apply zeros_len; exact FW]|]. intros [w b1] (-> & M1 & T1).
  assert (FY : fit (emb :: t_shape ix) (yt :: t_base ix)) by (split; [rewrite !zlen_cons; lia|split; constructor; assumption]).
  change (ins 0 emb (t_shape ix)) with (emb :: t_shape ix). change (ins 0 yt (t_base ix)) with (yt :: t_base ix).
  eapply okp_bind; [apply (moments_ok lo l); [apply (ma_inv _ _ _ _ _ M1)|exact FY|apply zeros_len; exact FY]|]. intros [y b2] (-> & M2 & T2).
  cbn [okp]. split; [|split].
  - rewrite (ma_n _ _ _ _ _ M1). reflexivity.
  - apply (made_trans lo b b1 b2 [_] [_] l M1 M2).
  - intros. rewrite T2, T1. reflexivity.
Qed.

(** no temporaries yet from layer [l] on *)
Definition tfree (l : nat) (b : build) : Prop := forall k i, (l <= k)%nat -> b_mem b (Tmp k i) = None.

Lemma gen_layer_norm_ok lo x eps e r eb rb b : binv lo b -> tfree (lid b) b -> hast b (Val x) (e :: r) (eb :: rb) -> fit (e :: r) (eb :: rb) ->
  okp (gen_layer_norm x 0 eps b) (fun '(d, b') => d = LNorm x (b_n b) (b_n b + 1) (b_n b + 2) 0 (sqrt eps) /\
    made lo b [(e :: r, eb :: rb); ([e], [eb]); ([e], [eb])] (lid b) b' /\
    hast b' (Tmp (lid b) 0) (e :: r) (eb :: rb) /\ hast b' (Tmp (lid b) 1) (e :: r) (eb :: rb) /\
    hast b' (Tmp (lid b) 2) r rb /\ hast b' (Tmp (lid b) 3) r rb).
Proof.
  intros Hb Ht Hx Hf. destruct (hast_shape _ _ _ _ Hx) as (E1 & E2 & E3). assert (Hf' := Hf). destruct Hf' as (F1 & F2 & F3).
  inversion F2 as [|? ? P1 P2]; subst. inversion F3 as [|? ? Q1 Q2]; subst.
  assert (F0 : fit [e] [eb]) by (split; [reflexivity|split; repeat constructor; assumption]).
  assert (FR : fit r rb) by (split; [rewrite !zlen_cons in F1; lia|split; assumption]).
  unfold gen_layer_norm. rewrite E1, E2. set (l := lid b) in *. change (zn (e :: r) 0) with e. change (zn (eb :: rb) 0) with eb.
  change (del 0 (e :: r)) with r. change (del 0 (eb :: rb)) with rb.
  eapply okp_bind; [apply (moments_ok lo l); assumption|]. intros [y b1] (-> & M1 & T1).
  eapply okp_bind; [apply (moments_ok lo l); [apply (ma_inv _ _ _ _ _ M1)|exact F0|apply zeros_len; exact F0]|]. intros [g b2] (-> & M2 & T2).
  eapply okp_bind; [apply (moments_ok lo l); [apply (ma_inv _ _ _ _ _ M2)|exact F0|apply zeros_len; exact F0]|]. intros [be b3] (-> & M3 & T3).
  assert (L3 : lid b3 = l) by (unfold lid; rewrite (ma_layers _ _ _ _ _ M3), (ma_layers _ _ _ _ _ M2), (ma_layers _ _ _ _ _ M1); reflexivity).
  cbv beta zeta. rewrite L3.
  assert (Fr : forall i, b_mem b3 (Tmp l i) = None) by (intros i; rewrite T3, T2, T1; apply Ht; reflexivity).
  eapply okp_bind; [apply (tmp_ok lo 0); [apply (ma_inv _ _ _ _ _ M3)|apply Fr|exact Hf|exact E3]|]. intros b4 (M4 & H4 & T4).
  eapply okp_bind; [apply (tmp_ok lo 1); [apply (ma_inv _ _ _ _ _ M4)|rewrite T4 by discriminate; apply Fr|exact Hf|exact E3]|]. intros b5 (M5 & H5 & T5).
  eapply okp_bind; [apply (tmp_ok lo 2); [apply (ma_inv _ _ _ _ _ M5)|rewrite T5, T4 by discriminate; apply Fr|exact FR|apply zeros_len; exact FR]|]. intros b6 (M6 & H6 & T6).
  eapply okp_bind; [apply (tmp_ok lo 3); [apply (ma_inv _ _ _ _ _ M6)|rewrite T6, T5, T4 by discriminate; apply Fr|exact FR|apply zeros_len; exact FR]|]. intros b7 (M7 & H7 & T7).
  cbn [okp].
  assert (X76 := ma_ext _ _ _ _ _ M7). assert (X65 := ma_ext _ _ _ _ _ M6). assert (X54 := ma_ext _ _ _ _ _ M5).
  split; [|split; [|split; [|split; [|split]]]].
  - rewrite (ma_n _ _ _ _ _ M2), (ma_n _ _ _ _ _ M1). cbn [List.length]. f_equal; lia.
  - pose proof (made_trans _ _ _ _ _ _ _ M1 (made_trans _ _ _ _ _ _ _ M2 (made_trans _ _ _ _ _ _ _ M3 (made_trans _ _ _ _ _ _ _ M4 (made_trans _ _ _ _ _ _ _ M5 (made_trans _ _ _ _ _ _ _ M6 M7)))))) as M.
    exact M.
  - eapply hast_ext; [exact X76|]. eapply hast_ext; [exact X65|]. eapply hast_ext; [exact X54|]. exact H4.
  - eapply hast_ext; [exact X76|]. eapply hast_ext; [exact X65|]. exact H5.
  - eapply hast_ext; [exact X76|]. exact H6.
  - exact H7.
Qed.

(** ** Chains of allocations within one layer *)
Section Chain.
Variables (lo : Z) (b0 : build).
Notation l := (lid b0).
Definition stt (trs : list (list Z * list Z)) (us : list (nat * (list Z * list Z))) (b : build) : Prop :=
  made lo b0 trs l b /\ (forall i tr, In (i, tr) us -> hast b (Tmp l i) (fst tr) (snd tr)) /\ (forall j, ~ In j (map fst us) -> b_mem b (Tmp l j) = None).
Lemma stt_start : binv lo b0 -> tfree l b0 -> stt [] [] b0.
Proof. intros H1 H2. split; [apply made_refl; assumption|]. split; [intros ? ? []|]. intros j _. apply H2. reflexivity. Qed.
Lemma stt_lid trs us b : stt trs us b -> lid b = l.
Proof. intros [H _]. unfold lid. rewrite (ma_layers _ _ _ _ _ H). reflexivity. Qed.
Lemma stt_node trs us b sh ba distr : stt trs us b -> fit sh ba -> zlen (distr (tn_of sh ba)) = prodZ (gridZ sh ba) ->
  okp (moments_new sh ba distr b) (fun '(n, b') => n = (b_n b0 + List.length trs)%nat /\ stt (trs ++ [(sh, ba)]) us b').
Proof.
  intros (M & H1 & H2) Hf Hd. eapply okp_weaken; [apply (moments_ok lo l); [apply (ma_inv _ _ _ _ _ M)|exact Hf|exact Hd]|].
  intros [n b1] (-> & M1 & T1). split; [apply (ma_n _ _ _ _ _ M)|]. split; [eapply made_trans; eassumption|]. split.
  - intros i tr Hi. eapply hast_ext; [exact (ma_ext _ _ _ _ _ M1)|auto].
  - intros j Hj. rewrite T1. auto.
Qed.
Lemma stt_tmp trs us b i sh ba : stt trs us b -> ~ In i (map fst us) -> fit sh ba ->
  okp (alloc (Tmp (lid b) i) sh ba zeros b) (stt trs ((i, (sh, ba)) :: us)).
Proof.
  intros HS Hi Hf. rewrite (stt_lid _ _ _ HS). destruct HS as (M & H1 & H2).
  eapply okp_weaken; [apply (tmp_ok lo i); [apply (ma_inv _ _ _ _ _ M)|apply H2; assumption|exact Hf|apply zeros_len; exact Hf]|].
  intros b1 (M1 & T1 & O1). split; [rewrite <- (app_nil_r trs); eapply made_trans; eassumption|]. split.
  - intros j tr [Hj|Hj]; [inversion Hj; subst; exact T1|]. eapply hast_ext; [exact (ma_ext _ _ _ _ _ M1)|auto].
  - intros j Hj. cbn [map fst] in Hj. rewrite O1 by (intros ->; apply Hj; left; reflexivity). apply H2. intros C. apply Hj. right. assumption.
Qed.
Lemma stt_tmp2 trs us b i sh ba : stt trs us b -> ~ In i (map fst us) -> ~ In (10 + i)%nat (map fst us) -> fit sh ba ->
  okp (tmp_moments i sh ba b) (stt trs (((10 + i)%nat, (sh, ba)) :: (i, (sh, ba)) :: us)).
Proof.
  intros HS Hi Hi' Hf. unfold tmp_moments. eapply okp_bind; [apply stt_tmp; eassumption|]. intros b1 H1. apply stt_tmp; [assumption| |assumption].
  cbn [map fst]. intros [C|C]; [lia|contradiction].
Qed.
End Chain.

(** self-attention with biases: x_q, x_k, x_v the same object *)
Definition attn_nodes (e n nb nh h et nt bt ht : Z) : list (list Z * list Z) :=
  [([nh; h; e], [ht; h; et]); ([h; nh], [h; ht]); ([nh; h; e], [ht; h; et]); ([h; nh], [h; ht]); ([nh; h; e], [ht; h; et]); ([h; nh], [h; ht]);
   ([e; nh; h], [et; ht; h]); ([e], [et]); ([e; n; nb], [et; nt; bt])].
Definition attn_tmps (n nb nh h nt bt ht : Z) : list (nat * (list Z * list Z)) :=
  map (fun i => (i, ([nh; h; n; nb], [ht; h; nt; bt]))) [0; 2; 4; 9; 10; 12; 14; 19]%nat ++
  map (fun i => (i, ([h; n; nb; nh], [h; nt; bt; ht]))) [1; 3; 5; 8; 11; 13; 15; 18]%nat ++
  map (fun i => (i, ([n; n; nb; nh], [nt; nt; bt; ht]))) [6; 16]%nat ++
  [(7%nat, ([2; n; nb; nh], [2; nt; bt; ht])); (17%nat, ([n; nb; nh], [nt; bt; ht]))].
Lemma gen_attention_ok lo flash x mt (n nb nh h et nt bt ht : Z) b :
  binv lo b -> tfree (lid b) b -> hast b (Val x) [h * nh; n; nb] [et; nt; bt] ->
  0 < n -> 0 < nb -> 0 < nh -> 0 < h -> 0 < et -> 0 < nt -> 0 < bt -> 0 < ht -> (flash = true -> (ht | nh)) ->
  okp (gen_attention flash x x x nh ht true (Some mt) b) (fun '(d, b') =>
    (let o := b_n b in d = LAttn flash x x x (o + 8) o (o + 2) (o + 4) (o + 6) (Some (o + 1, o + 3, o + 5, o + 7)%nat) (Some mt)) /\
    made lo b (attn_nodes (h * nh) n nb nh h et nt bt ht) (lid b) b' /\
    (forall i tr, In (i, tr) (attn_tmps n nb nh h nt bt ht) -> hast b' (Tmp (lid b) i) (fst tr) (snd tr))).
Proof.
  intros Hb Ht Hx P1 P2 P3 P4 P5 P6 P7 P8 Hfl. destruct (hast_shape _ _ _ _ Hx) as (E1 & E2 & E3).
  assert (P0 : 0 < h * nh) by nia. unfold gen_attention. rewrite E1, E2, E3 || rewrite E1, E2.
  rewrite Z.div_mul by lia. rewrite Z.eqb_refl. cbn [negb throw_if].
  assert (Ef : flash && negb (nh mod ht =? 0) = false).
  { destruct flash; [|reflexivity]. rewrite (proj2 (Z.mod_divide nh ht ltac:(lia)) (Hfl eq_refl)). reflexivity. }
  rewrite Ef. cbn [throw_if].
  change (sl_from 1 [h * nh; n; nb]) with [n; nb]. change (sl_from 1 [et; nt; bt]) with [nt; bt].
  cbn [list_eqb]. rewrite !Z.eqb_refl. cbn [andb negb throw_if]. cbv zeta.
  change (zn [h * nh; n; nb] 0) with (h * nh). change (zn [et; nt; bt] 0) with et.
  assert (S0 := stt_start lo b Hb Ht).
  assert (Hd : forall b' : build, zlen (bdistr b x) = prodZ (gridZ [h * nh; n; nb] [et; nt; bt])) by (intros _; exact E3).
  unfold moments_if.
  Ltac fitt := split; [reflexivity|split; repeat constructor; lia].
  Ltac nodestep S0 := eapply okp_bind; [apply (stt_node _ _ _ _ _ _ _ _ S0); [fitt|apply zeros_len; fitt]|]; clear S0; intros [? ?] (-> & S0).
  Ltac tmpstep S0 := eapply okp_bind; [apply (stt_tmp2 _ _ _ _ _ _ _ _ S0); [cbn; lia|cbn; lia|fitt]|]; clear S0; intros ? S0.
  Ltac tmpstep1 S0 := eapply okp_bind; [apply (stt_tmp _ _ _ _ _ _ _ _ S0); [cbn; lia|fitt]|]; clear S0; intros ? S0.
  nodestep S0. nodestep S0. nodestep S0. nodestep S0. nodestep S0. nodestep S0. nodestep S0.
  tmpstep S0. tmpstep S0. tmpstep S0. tmpstep S0. tmpstep S0. tmpstep S0. tmpstep S0. tmpstep1 S0. tmpstep1 S0. tmpstep S0. tmpstep S0.
  nodestep S0.
  eapply okp_bind; [apply (stt_node _ _ _ _ _ _ _ _ S0); [fitt|exact E3]|]; clear S0; intros [? ?] (-> & S0).
  cbn [okp]. destruct S0 as (M & T1 & T2). cbn [app List.length Nat.add] in *. split; [rewrite Nat.add_0_r; reflexivity|]. split; [exact M|].
  intros i tr Hi. apply T1. clear - Hi. unfold attn_tmps in Hi. cbn [map app In] in *. intuition.
Qed.
