(** * The Linear layer *)
From Coq Require Import Reals Lra FunctionalExtensionality.
From Coquelicot Require Import Coquelicot.
From Verif Require Import Base Spec Geometry Traits TraitsProofs Runtime Ops RealOps TensorSem OneOut ElemOps Axis SliceOps FiberOps FiberGeo PropElem PropFiber MatOps MatProofs GemmProofs GemmRuns PropMat RSum XReals Sequence NdRuns XTriples HasRuns TapeMath VjpMath Tape PyLayers.
Local Open Scope R_scope.
Local Close Scope Z_scope.
Local Open Scope R_scope.

Definition opt_list {X} (o : option X) : list X := match o with Some x => [x] | None => [] end.

(** ** The function *)
Section Fun.
Variables (sd : side) (tx : transop) (sI sK sJ : list Z) (hasb : bool).
(** the axis of the output the bias runs along *)
Definition lin_axis : Z := match sd with SideL => zlen sI | SideR => 0%Z end.
Definition lin_osh : list Z := match sd with SideL => sI ++ sJ | SideR => sJ ++ sI end.
(** inputs: 0 is x, 1 is w, 2 is the bias *)
Definition lin_F (vs : nat -> arr) : arr := fun idx =>
  match sd with
  | SideL => matmul sI sK sJ tx NoTrans (vs 0%nat) (vs 1%nat) idx
  | SideR => matmul sJ sK sI NoTrans tx (vs 1%nat) (vs 0%nat) idx
  end + (if hasb then vs 2%nat (fib lin_axis 0 idx) else 0).
Definition lin_dx (vs : nat -> arr) (gy : arr) : arr :=
  match sd, tx with
  | SideL, NoTrans => matmul sI sJ sK NoTrans Trans gy (vs 1%nat)
  | SideL, Trans => matmul sK sJ sI NoTrans Trans (vs 1%nat) gy
  | SideR, NoTrans => matmul sK sJ sI Trans NoTrans (vs 1%nat) gy
  | SideR, Trans => matmul sI sJ sK Trans NoTrans gy (vs 1%nat)
  end.
Definition lin_dw (vs : nat -> arr) (gy : arr) : arr :=
  match sd, tx with
  | SideL, NoTrans => matmul sK sI sJ Trans NoTrans (vs 0%nat) gy
  | SideL, Trans => matmul sK sI sJ NoTrans NoTrans (vs 0%nat) gy
  | SideR, NoTrans => matmul sJ sI sK NoTrans Trans gy (vs 0%nat)
  | SideR, Trans => matmul sJ sI sK NoTrans NoTrans gy (vs 0%nat)
  end.
Definition lin_db (gy : arr) : arr := fun d => fiber_sum lin_osh lin_axis 0 d gy.
Definition lin_dl (vs : nat -> arr) (gy : arr) (j : nat) : arr :=
  match j with O => lin_dx vs gy | 1%nat => lin_dw vs gy | _ => lin_db gy end.
End Fun.

Lemma fib_last (l : list Z) a : (0 <= a < zlen l)%Z -> fib a 0 l = [zn l a].
Proof.
  intros H. unfold fib. rewrite Z.sub_0_r. unfold zlen. rewrite Nat2Z.id, skipn_all. reflexivity.
Qed.
Lemma inb_nil (idx : list Z) : inb [] idx -> idx = [].
Proof. inversion 1. reflexivity. Qed.
Lemma matmul_0 sm sk sn tA tB a b mi ni : inb sm mi -> inb sn ni ->
  matmul sm sk sn tA tB a b (mi ++ ni) = Rsuml (all_idx sk) (fun ki => a (op_dims tA mi ki []) * b (op_dims tB ki ni [])).
Proof. intros H1 H2. rewrite <- (app_nil_r (mi ++ ni)), <- app_assoc. apply matmul_at; assumption. Qed.
Lemma pre_fiber sh axis gy k : pre sh (fib axis 0) gy k = fiber_sum sh axis 0 k gy.
Proof.
  unfold pre, fiber_sum. rewrite Rsuml_filter. apply Rsuml_ext. intros i _. cbv beta.
  destruct (list_eq_dec Z.eq_dec (fib axis 0 i) k) as [El|Hn]; destruct (list_eqb Z.eqb (fib axis 0 i) k) eqn:Eb; try reflexivity; exfalso.
  - rewrite El in Eb. clear - Eb. induction k as [|z k IH]; [discriminate|]. cbn in Eb. rewrite Z.eqb_refl in Eb. auto.
  - apply Hn. clear Hn. revert Eb. generalize (fib axis 0 i). induction k as [|z k IH]; intros [|y l] Eb; try discriminate; [reflexivity|].
    cbn in Eb. apply andb_prop in Eb as [E1 E2]. apply Z.eqb_eq in E1. subst. f_equal. apply IH. assumption.
Qed.
Lemma tv_zero n ish osh D : tv n ish osh D (fun _ _ => 0) (fun _ _ _ _ => 0).
Proof.
  intros c c' t0 HD Hc. exists (fun _ => 0). split.
  - intros. exact (is_derive_const (K := R_AbsRing) (V := R_NormedModule) 0 t0).
  - intros gy. rewrite dot_0_r by reflexivity. symmetry. apply Rsuml_0. intros. apply dot_0.
Qed.

Ltac app_norm := unfold op_dims; rewrite ?app_nil_r, <- ?app_assoc.
Lemma lin_tv sd tx sI sK sJ hasb n ish D : (1 < n)%nat -> (hasb = true -> (2 < n)%nat /\ ish 2%nat = fib (lin_axis sd sI) 0 (lin_osh sd sI sJ) /\
    (0 <= lin_axis sd sI < zlen (lin_osh sd sI sJ))%Z) -> (hasb = false -> n = 2%nat) -> (n <= 3)%nat ->
  pos sI -> pos sK -> pos sJ ->
  ish 0%nat = match sd with SideL => op_dims tx sI sK [] | SideR => op_dims tx sK sI [] end ->
  ish 1%nat = match sd with SideL => sK ++ sJ | SideR => sJ ++ sK end ->
  tv n ish (lin_osh sd sI sJ) D (lin_F sd tx sI sK sJ hasb) (lin_dl sd tx sI sK sJ).
Proof.
  intros Hn Hb Hb' Hn3 PI PK PJ E0 E1.
  assert (P0 : pos []) by constructor.
  assert (Po : pos (lin_osh sd sI sJ)) by (unfold lin_osh, pos in *; destruct sd; apply Forall_app; auto).
  assert (Pb : hasb = true -> pos (ish 2%nat)).
  { intros Eb. destruct (Hb Eb) as (_ & -> & Ha). rewrite fib_last by assumption. constructor; [|constructor]. apply pos_zn; assumption. }
  assert (Pish : forall j, (j < n)%nat -> pos (ish j)).
  { intros [|[|[|j]]] Hj; [rewrite E0; destruct sd; apply pos_op; assumption|rewrite E1; destruct sd; unfold pos in *; apply Forall_app; auto| |lia].
    apply Pb. destruct hasb; [reflexivity|]. specialize (Hb' eq_refl). lia. }
  assert (H1 : tv n ish (lin_osh sd sI sJ) D (fun vs idx => match sd with SideL => matmul sI sK sJ tx NoTrans (vs 0%nat) (vs 1%nat) idx
      | SideR => matmul sJ sK sI NoTrans tx (vs 1%nat) (vs 0%nat) idx end)
      (fun vs gy j idx => sel 0 (lin_dx sd tx sI sK sJ vs gy) j idx + sel 1 (lin_dw sd tx sI sK sJ vs gy) j idx)).
  { unfold lin_osh, lin_dx, lin_dw. destruct sd.
    - apply (tv_matmul n ish (sI ++ sJ) D 0 1 1 tx NoTrans sI sK sJ []); try assumption; try lia.
      + rewrite E1. app_norm. reflexivity.
      + rewrite app_nil_r. reflexivity.
      + intros vs mi ni bi Hm Hn' Hb0. rewrite matmul_at by assumption. ring.
      + intros vs gy mi ki bi Hm Hk Hb0. apply inb_nil in Hb0. subst. rewrite Rmult_1_l. destruct tx.
        * app_norm. rewrite matmul_0 by assumption. apply Rsuml_ext. intros. app_norm. reflexivity.
        * app_norm. rewrite matmul_0 by assumption. apply Rsuml_ext. intros. app_norm. ring.
      + intros vs gy ki ni bi Hk Hn' Hb0. apply inb_nil in Hb0. subst. rewrite Rmult_1_l.
        destruct tx; app_norm; rewrite matmul_0 by assumption; apply Rsuml_ext; intros; app_norm; ring.
    - apply (tv_ext n ish (sJ ++ sI) D (fun vs idx => matmul sJ sK sI NoTrans tx (vs 1%nat) (vs 0%nat) idx) (fun vs gy j idx => sel 1 (lin_dw SideR tx sI sK sJ vs gy) j idx + sel 0 (lin_dx SideR tx sI sK sJ vs gy) j idx)).
      { assumption. } { intros; reflexivity. } { intros. unfold lin_dw, lin_dx. ring. }
      apply (tv_matmul n ish (sJ ++ sI) D 1 0 1 NoTrans tx sJ sK sI []); try assumption; try lia.
      + rewrite E1. app_norm. reflexivity.
      + rewrite app_nil_r. reflexivity.
      + intros vs mi ni bi Hm Hn' Hb0. rewrite matmul_at by assumption. ring.
      + intros vs gy mi ki bi Hm Hk Hb0. apply inb_nil in Hb0. subst. rewrite Rmult_1_l. unfold lin_dw.
        destruct tx; app_norm; rewrite matmul_0 by assumption; apply Rsuml_ext; intros; app_norm; ring.
      + intros vs gy ki ni bi Hk Hn' Hb0. apply inb_nil in Hb0. subst. rewrite Rmult_1_l. unfold lin_dx.
        destruct tx; app_norm; rewrite matmul_0 by assumption; apply Rsuml_ext; intros; app_norm; ring. }
  destruct hasb eqn:Eb.
  - destruct (Hb eq_refl) as (Hn2 & E2 & Ha).
    assert (H2 : tv n ish (lin_osh sd sI sJ) D (fun vs i => vs 2%nat (fib (lin_axis sd sI) 0 i)) (fun _ gy => sel 2 (pre (lin_osh sd sI sJ) (fib (lin_axis sd sI) 0) gy))).
    { apply tv_gather; try assumption; [apply Pb; reflexivity|]. intros i Hi. rewrite E2, !fib_last by (try rewrite <- (inb_zlen _ _ Hi); assumption).
      constructor; [|constructor]. apply inb_zn; [assumption|]. assumption. }
    eapply tv_ext; [assumption| | |exact (tv_plus _ _ _ _ _ _ _ _ H1 H2)].
    + intros vs idx _. unfold lin_F. reflexivity.
    + intros vs gy [|[|[|j]]] idx _ Hj _; [| | |lia]; unfold sel; cbn; rewrite ?pre_fiber; unfold lin_db; ring.
  - specialize (Hb' eq_refl). subst n. eapply tv_ext; [assumption| | |exact H1].
    + intros vs idx _. unfold lin_F. ring.
    + intros vs gy [|[|j]] idx _ Hj _; [| |lia]; unfold sel; cbn; ring.
Qed.

(** ** The layer *)
Section Layer.
Context {E : env} (req : nat -> bool).

(** A node in use; its gradient, if required, is tiled like its value. *)
Definition node_ok (n : nat) : Prop := U (Val n) /\ (req n = true -> U (Grad n) /\ same_tiling (A (Grad n)) (A (Val n))).
Definition vshape (n : nat) : list Z := t_shape (A (Val n)).
Definition vbase (n : nat) : list Z := t_base (A (Val n)).

(** The operands fit: x is (sI, sK) or its transpose, w (sK, sJ), y (sI, sJ), the bias sJ on
    side L; x is (sK, sI) or its transpose, w (sJ, sK), y (sJ, sI) on side R. *)
Record linear_ok (sd : side) (tx : transop) (x y w : nat) (nd : Z) (b : option nat) (sI sK sJ bI bK bJ : list Z) : Prop := {
  lo_nodes : node_ok x /\ node_ok y /\ node_ok w /\ (forall n, b = Some n -> node_ok n);
  lo_y : req y = true /\ x <> y /\ w <> y /\ (forall n, b = Some n -> n <> y);
  lo_nd : zlen sK = nd /\ zlen bK = nd;
  lo_x : match sd with SideL => vshape x = op_dims tx sI sK [] /\ vbase x = op_dims tx bI bK []
                     | SideR => vshape x = op_dims tx sK sI [] /\ vbase x = op_dims tx bK bI [] end;
  lo_w : match sd with SideL => vshape w = sK ++ sJ /\ vbase w = bK ++ bJ | SideR => vshape w = sJ ++ sK /\ vbase w = bJ ++ bK end;
  lo_yy : match sd with SideL => vshape y = sI ++ sJ /\ vbase y = bI ++ bJ | SideR => vshape y = sJ ++ sI /\ vbase y = bJ ++ bI end;
  lo_rank : zlen bI = zlen sI /\ zlen bJ = zlen sJ;
  lo_b : forall n, b = Some n -> zlen sJ = 1%Z /\ vshape n = sJ /\ vbase n = bJ
}.

Definition linear_layer (sd : side) (tx : transop) (x y w : nat) (nd : Z) (b : option nat) (id : nat) (sI sK sJ : list Z) : layer := {|
  ly_m := {| ml_ins := x :: w :: opt_list b; ml_out := y; ml_F := lin_F sd tx sI sK sJ (match b with Some _ => true | None => false end);
             ml_D := fun _ => True; ml_dl := lin_dl sd tx sI sK sJ |};
  ly_id := id;
  ly_py := {| pl_forward := linear_forward sd tx (node req x) (node req y) (node req w) nd (option_map (node req) b);
              pl_backward := linear_backward sd tx (node req x) (node req y) (node req w) nd (option_map (node req) b) |};
  ly_saved := fun _ _ => True |}.

Lemma zlen1 {X} (l : list X) : zlen l = 1%Z -> exists d, l = [d].
Proof. destruct l as [|d [|d' l]]; intros H; [discriminate|eauto|]. rewrite !zlen_cons in H. pose proof (zlen_nonneg l). lia. Qed.
Lemma fib_L (l : list Z) d : fib (zlen l) 0 (l ++ [d]) = [d].
Proof.
  rewrite fib_last by (rewrite zlen_app; pose proof (zlen_nonneg l); change (zlen [d]) with 1%Z; lia). f_equal. unfold zn, zlen.
  rewrite Nat2Z.id, app_nth2, Nat.sub_diag by lia. reflexivity.
Qed.
Lemma fib_R (l : list Z) d : fib 0 0 (d :: l) = [d].
Proof. rewrite fib_last by (rewrite zlen_cons; pose proof (zlen_nonneg l); lia). reflexivity. Qed.
Lemma same_sym (a b : tensor) : same_tiling a b -> same_tiling b a.
Proof. intros [H1 H2]. split; congruence. Qed.

Lemma lin_fiber sd tx x y w nd b sI sK sJ bI bK bJ n t tb : linear_ok sd tx x y w nd b sI sK sJ bI bK bJ -> b = Some n -> (t_shape t = vshape y /\ t_base t = vbase y) -> (t_shape tb = vshape n /\ t_base tb = vbase n) ->
  fiber_match t tb (lin_axis sd sI) 0 /\ match sd with SideL => (zlen (vshape y) - 1)%Z | SideR => 0%Z end = lin_axis sd sI.
Proof.
  intros H Eb [E1 E2] [E3 E4]. destruct (lo_b _ _ _ _ _ _ _ _ _ _ _ _ _ H n Eb) as (L1 & L2 & L3). destruct (lo_rank _ _ _ _ _ _ _ _ _ _ _ _ _ H) as [R1 R2].
  assert (L1' : zlen bJ = 1%Z) by lia. destruct (zlen1 _ L1) as [d ->]. destruct (zlen1 _ L1') as [e ->].
  pose proof (lo_yy _ _ _ _ _ _ _ _ _ _ _ _ _ H) as Hy. unfold fiber_match. rewrite E1, E2, E3, E4, L2, L3. pose proof (zlen_nonneg sI).
  destruct sd; destruct Hy as [-> ->]; unfold lin_axis.
  - rewrite zlen_app. cbn [zlen List.length Z.of_nat]. replace (zlen [d]) with 1%Z by reflexivity. split; [|lia].
    split; [lia|]. split; [lia|]. rewrite fib_L. split; [reflexivity|]. rewrite <- R1, fib_L. reflexivity.
  - cbn [app]. rewrite zlen_cons. split; [|reflexivity]. split; [lia|]. split; [lia|]. rewrite !fib_R. split; reflexivity.
Qed.

Lemma linear_fwd sd tx x y w nd b id sI sK sJ bI bK bJ : linear_ok sd tx x y w nd b sI sK sJ bI bK bJ ->
  fwd_ok req (linear_layer sd tx x y w nd b id sI sK sJ).
Proof.
  intros H.
  destruct (lo_nodes _ _ _ _ _ _ _ _ _ _ _ _ _ H) as (Nx & Ny & Nw & Nb). destruct (lo_y _ _ _ _ _ _ _ _ _ _ _ _ _ H) as (Ry & Hxy & Hwy & Hby).
  destruct (lo_nd _ _ _ _ _ _ _ _ _ _ _ _ _ H) as [K1 K2]. pose proof (lo_x _ _ _ _ _ _ _ _ _ _ _ _ _ H) as Sx.
  pose proof (lo_w _ _ _ _ _ _ _ _ _ _ _ _ _ H) as Sw. pose proof (lo_yy _ _ _ _ _ _ _ _ _ _ _ _ _ H) as Sy.
  destruct Nx as [Ux _], Ny as [Uy _], Nw as [Uw _].
  intros vs M G s Hs _ Hin. cbn [ly_py pl_forward linear_layer ly_m ml_out ml_F ly_saved ly_id].
  assert (Ex : ov req G M (Val x) = Some (fin (vs 0%nat))) by (apply (Hin 0%nat); cbn; lia).
  assert (Ew : ov req G M (Val w) = Some (fin (vs 1%nat))) by (apply (Hin 1%nat); cbn; lia).
  set (mm := fun idx => match sd with SideL => matmul sI sK sJ tx NoTrans (vs 0%nat) (vs 1%nat) idx
      | SideR => matmul sJ sK sI NoTrans tx (vs 1%nat) (vs 0%nat) idx end).
  set (g := match sd with SideL => gemm_async (Fin 1) tx (A (Val x)) NoTrans (A (Val w)) (Fin 0) (A (Val y)) nd 0 false
      | SideR => gemm_async (Fin 1) NoTrans (A (Val w)) tx (A (Val x)) (Fin 0) (A (Val y)) nd 0 false end).
  assert (Eq : linear_forward sd tx (node req x) (node req y) (node req w) nd (option_map (node req) b) = pyseq [g;
     py_opt b (fun n => add_fiber_async (Fin 1) (A (Val n)) (Fin 1) (A (Val y)) (match sd with SideL => (zlen (vshape y) - 1)%Z | SideR => 0%Z end) 0)]).
  { unfold linear_forward, g. destruct sd, b; reflexivity. }
  rewrite Eq.
  assert (Hg : runs_nd g s (has (upd (Val y) (Some (fin mm)) (ov req G M)))).
  { unfold g. destruct sd; destruct Sx as [Sx Sx'], Sw as [Sw Sw'], Sy as [Sy Sy'].
    - apply (h_gemm 1 0 tx NoTrans _ s (Val x) (Val w) (Val y) nd 0 (vs 0%nat) (vs 1%nat) (fun _ => 0) mm sI sK sJ [] bI bK bJ []); try assumption; try congruence; try reflexivity;
        try (app_norm; assumption); [left; reflexivity|].
      intros mi ni bi Hm Hn Hb. unfold mm. rewrite matmul_at by assumption. ring.
    - apply (h_gemm 1 0 NoTrans tx _ s (Val w) (Val x) (Val y) nd 0 (vs 1%nat) (vs 0%nat) (fun _ => 0) mm sJ sK sI [] bJ bK bI []); try assumption; try congruence; try reflexivity;
        try (app_norm; assumption); [left; reflexivity|].
      intros mi ni bi Hm Hn Hb. unfold mm. rewrite matmul_at by assumption. ring. }
  eapply py_val; [exact Hg|]. clear g Eq Hg. intros s1 H1. destruct b as [n|]; cbn [py_opt].
  - destruct (lin_fiber _ _ _ _ _ _ _ _ _ _ _ _ _ n (A (Val y)) (A (Val n)) H eq_refl) as [Hf ->]; [split; reflexivity|split; reflexivity|].
    specialize (Hby n eq_refl). destruct (Nb n eq_refl) as [Un _].
    eapply py_val; [apply (h_add_fiber 1 1 _ s1 (Val n) (Val y) (lin_axis sd sI) 0 (vs 2%nat) mm (lin_F sd tx sI sK sJ true vs) ltac:(lra) H1 Un Uy)|].
    + congruence.
    + assumption.
    + cbn [ov]. rewrite upd_ne by congruence. apply (Hin 2%nat). cbn. lia.
    + apply upd_eq.
    + intros idx _. unfold lin_F, mm. ring.
    + intros s2 H2. apply py_nil. eexists. split; [exact H2|].
      split; [apply upd_eq|]. split; [exact I|]. split; intros; rewrite !upd_ne by congruence; reflexivity.
  - apply py_skip. apply py_nil. eexists. split; [exact H1|].
    split; [|split; [exact I|split; intros; rewrite !upd_ne by congruence; reflexivity]].
    rewrite upd_eq. f_equal. f_equal. apply functional_extensionality. intros idx. unfold lin_F, mm. ring.
Qed.

(** the gradient of the output is kept *)
Lemma linear_bwd_all sd tx x y w nd b id sI sK sJ bI bK bJ : linear_ok sd tx x y w nd b sI sK sJ bI bK bJ ->
  let l := linear_layer sd tx x y w nd b id sI sK sJ in
  forall vs M G s, st req M G s -> ml_D (ly_m l) vs -> inputs (ly_m l) vs M -> ly_saved l vs M ->
  runs_nd (pl_backward (ly_py l)) s (fun s' => exists M' G', st req M' G' s' /\
    (forall n idx, G' n idx = acc (ly_m l) vs G n idx) /\
    (forall n, M' (Val n) = M (Val n)) /\
    (forall k i, k <> ly_id l -> M' (Tmp k i) = M (Tmp k i))).
Proof.
  intros H l0. unfold l0. clear l0. destruct (lo_nodes _ _ _ _ _ _ _ _ _ _ _ _ _ H) as (Nx & Ny & Nw & Nb). destruct (lo_y _ _ _ _ _ _ _ _ _ _ _ _ _ H) as (Ry & Hxy & Hwy & Hby).
  destruct (lo_nd _ _ _ _ _ _ _ _ _ _ _ _ _ H) as [K1 K2]. pose proof (lo_x _ _ _ _ _ _ _ _ _ _ _ _ _ H) as Sx.
  pose proof (lo_w _ _ _ _ _ _ _ _ _ _ _ _ _ H) as Sw. pose proof (lo_yy _ _ _ _ _ _ _ _ _ _ _ _ _ H) as Sy. destruct (lo_rank _ _ _ _ _ _ _ _ _ _ _ _ _ H) as [R1 R2].
  destruct Nx as [Ux Nx], Ny as [Uy Ny], Nw as [Uw Nw]. destruct (Ny Ry) as [Ugy [Tgy Tgy']].
  intros vs M G s Hs _ Hin _. cbn [ly_py pl_backward linear_layer ly_m ml_out ly_id].
  assert (Ex : M (Val x) = Some (fin (vs 0%nat))) by (apply (Hin 0%nat); cbn; lia).
  assert (Ew : M (Val w) = Some (fin (vs 1%nat))) by (apply (Hin 1%nat); cbn; lia).
  unfold vshape, vbase in Sx, Sw, Sy.
  assert (Dx : (ndim (m_val (node req x)) - nd)%Z = zlen sI).
  { unfold ndim. cbn [node m_val]. destruct sd; destruct Sx as [-> _]; unfold op_dims; destruct tx; rewrite app_nil_r, zlen_app; lia. }
  assert (Dw : (ndim (m_val (node req w)) - nd)%Z = zlen sJ).
  { unfold ndim. cbn [node m_val]. destruct sd; destruct Sw as [-> _]; rewrite zlen_app; lia. }
  unfold linear_backward. cbv zeta. rewrite Dx, Dw.
  set (gy := G y).
  eapply (py_grad req M G s w (lin_dw sd tx sI sK sJ vs gy)); [exact Hs| |].
  { intros Rw. destruct (Nw Rw) as [Ugw [Tw Tw']]. cbn [node m_val m_grad]. rewrite <- Tgy in Sy. rewrite <- Tgy' in Sy. rewrite <- Tw in Sw. rewrite <- Tw' in Sw.
    unfold lin_dw. destruct sd, tx; destruct Sx as [Sx Sx'], Sw as [Sw Sw'], Sy as [Sy Sy'].
    - apply (h_gemm 1 1 Trans NoTrans _ s (Val x) (Grad y) (Grad w) (zlen sI) 0 (vs 0%nat) gy (G w) _ sK sI sJ [] bK bI bJ []); cbn [ov]; rewrite ?Rw, ?Ry; try assumption; try congruence; try reflexivity;
        try (app_norm; assumption || (rewrite Sx || rewrite Sx'; app_norm; reflexivity)); [right; reflexivity|].
      intros mi ni bi Hm Hn Hb. rewrite matmul_at by assumption. ring.
    - apply (h_gemm 1 1 NoTrans NoTrans _ s (Val x) (Grad y) (Grad w) (zlen sI) 0 (vs 0%nat) gy (G w) _ sK sI sJ [] bK bI bJ []); cbn [ov]; rewrite ?Rw, ?Ry; try assumption; try congruence; try reflexivity;
        try (app_norm; assumption || (rewrite Sx || rewrite Sx'; app_norm; reflexivity)); [right; reflexivity|].
      intros mi ni bi Hm Hn Hb. rewrite matmul_at by assumption. ring.
    - apply (h_gemm 1 1 NoTrans Trans _ s (Grad y) (Val x) (Grad w) (zlen sI) 0 gy (vs 0%nat) (G w) _ sJ sI sK [] bJ bI bK []); cbn [ov]; rewrite ?Rw, ?Ry; try assumption; try congruence; try reflexivity;
        try (app_norm; assumption || (rewrite Sx || rewrite Sx'; app_norm; reflexivity)); [right; reflexivity|].
      intros mi ni bi Hm Hn Hb. rewrite matmul_at by assumption. ring.
    - apply (h_gemm 1 1 NoTrans NoTrans _ s (Grad y) (Val x) (Grad w) (zlen sI) 0 gy (vs 0%nat) (G w) _ sJ sI sK [] bJ bI bK []); cbn [ov]; rewrite ?Rw, ?Ry; try assumption; try congruence; try reflexivity;
        try (app_norm; assumption || (rewrite Sx || rewrite Sx'; app_norm; reflexivity)); [right; reflexivity|].
      intros mi ni bi Hm Hn Hb. rewrite matmul_at by assumption. ring. }
  intros s1 H1. set (G1 := addg w (lin_dw sd tx sI sK sJ vs gy) G).
  assert (Gy1 : G1 y = gy).
  { apply functional_extensionality. intros i. unfold G1, addg, gy. destruct (Nat.eq_dec w y); [congruence|]. ring. }
  set (G2 := match b with Some n => addg n (lin_db sd sI sJ gy) G1 | None => G1 end).
  assert (Gy2 : G2 y = gy).
  { unfold G2. destruct b as [n|]; [|assumption]. apply functional_extensionality. intros i. unfold addg. rewrite Gy1.
    specialize (Hby n eq_refl). destruct (Nat.eq_dec n y); [congruence|]. ring. }
  assert (Last : forall s2, st req M G2 s2 -> runs_nd (pyseq [py_if (m_req (node req x)) match sd, tx with
      | SideL, NoTrans => gemm_async o_one NoTrans (m_grad (node req y)) Trans (m_val (node req w)) o_one (m_grad (node req x)) (zlen sJ) 0 false
      | SideL, Trans => gemm_async o_one NoTrans (m_val (node req w)) Trans (m_grad (node req y)) o_one (m_grad (node req x)) (zlen sJ) 0 false
      | SideR, NoTrans => gemm_async o_one Trans (m_val (node req w)) NoTrans (m_grad (node req y)) o_one (m_grad (node req x)) (zlen sJ) 0 false
      | SideR, Trans => gemm_async o_one Trans (m_grad (node req y)) NoTrans (m_val (node req w)) o_one (m_grad (node req x)) (zlen sJ) 0 false
      end]) s2 (st req M (addg x (lin_dx sd tx sI sK sJ vs gy) G2))).
  { intros s2 H2. eapply (py_grad req M G2 s2 x (lin_dx sd tx sI sK sJ vs gy)); [exact H2| |intros s3 H3; apply py_nil; exact H3].
    intros Rx. destruct (Nx Rx) as [Ugx [Tx Tx']]. cbn [node m_val m_grad]. rewrite <- Tgy in Sy. rewrite <- Tgy' in Sy. rewrite <- Tx in Sx. rewrite <- Tx' in Sx.
    unfold lin_dx. destruct sd, tx; destruct Sx as [Sx Sx'], Sw as [Sw Sw'], Sy as [Sy Sy'].
    - apply (h_gemm 1 1 NoTrans Trans _ s2 (Grad y) (Val w) (Grad x) (zlen sJ) 0 gy (vs 1%nat) (G2 x) _ sI sJ sK [] bI bJ bK []); cbn [ov]; rewrite ?Rx, ?Ry, ?Gy2; try assumption; try congruence; try reflexivity;
        try (app_norm; assumption || (rewrite Sx || rewrite Sx'; app_norm; reflexivity)); [right; reflexivity|].
      intros mi ni bi Hm Hn Hb. rewrite matmul_at by assumption. ring.
    - apply (h_gemm 1 1 NoTrans Trans _ s2 (Val w) (Grad y) (Grad x) (zlen sJ) 0 (vs 1%nat) gy (G2 x) _ sK sJ sI [] bK bJ bI []); cbn [ov]; rewrite ?Rx, ?Ry, ?Gy2; try assumption; try congruence; try reflexivity;
        try (app_norm; assumption || (rewrite Sx || rewrite Sx'; app_norm; reflexivity)); [right; reflexivity|].
      intros mi ni bi Hm Hn Hb. rewrite matmul_at by assumption. ring.
    - apply (h_gemm 1 1 Trans NoTrans _ s2 (Val w) (Grad y) (Grad x) (zlen sJ) 0 (vs 1%nat) gy (G2 x) _ sK sJ sI [] bK bJ bI []); cbn [ov]; rewrite ?Rx, ?Ry, ?Gy2; try assumption; try congruence; try reflexivity;
        try (app_norm; assumption || (rewrite Sx || rewrite Sx'; app_norm; reflexivity)); [right; reflexivity|].
      intros mi ni bi Hm Hn Hb. rewrite matmul_at by assumption. ring.
    - apply (h_gemm 1 1 Trans NoTrans _ s2 (Grad y) (Val w) (Grad x) (zlen sJ) 0 gy (vs 1%nat) (G2 x) _ sI sJ sK [] bI bJ bK []); cbn [ov]; rewrite ?Rx, ?Ry, ?Gy2; try assumption; try congruence; try reflexivity;
        try (app_norm; assumption || (rewrite Sx || rewrite Sx'; app_norm; reflexivity)); [right; reflexivity|].
      intros mi ni bi Hm Hn Hb. rewrite matmul_at by assumption. ring. }
  assert (Fin_ : forall s3, st req M (addg x (lin_dx sd tx sI sK sJ vs gy) G2) s3 -> exists M' G', st req M' G' s3 /\
      (forall n idx, G' n idx = acc (ly_m (linear_layer sd tx x y w nd b id sI sK sJ)) vs G n idx) /\
      (forall n, M' (Val n) = M (Val n)) /\ (forall k i, k <> id -> M' (Tmp k i) = M (Tmp k i))).
  { intros s3 H3. exists M. eexists. split; [exact H3|]. split; [|split; reflexivity]. intros n idx. unfold acc, contrib, arity, inp, Nsum, G2, G1.
    fold gy. cbn [ly_m linear_layer ml_ins ml_dl ml_out]. destruct b as [m|]; cbn [opt_list List.length seq nth]; rewrite ?Rsuml_cons, ?Rsuml_nil; cbn [lin_dl nth]; unfold addg; fold gy; ring. }
  destruct b as [n|]; cbn [py_opt option_map].
  - destruct (lin_fiber _ _ _ _ _ _ _ _ _ _ _ _ _ n (A (Grad y)) (A (Val n)) H eq_refl) as [Hf Ea]; [split; assumption|split; reflexivity|].
    eapply (py_grad req M G1 s1 n (lin_db sd sI sJ gy)); [exact H1| |].
    + intros Rn. destruct (Nb n eq_refl) as [Un Nn]. destruct (Nn Rn) as [Ugn Tn]. specialize (Hby n eq_refl).
      destruct (lin_fiber _ _ _ _ _ _ _ _ _ _ _ _ _ n (A (Grad y)) (A (Grad n)) H eq_refl) as [Hf' _]; [split; assumption|exact Tn|].
      assert (Eo : lin_osh sd sI sJ = t_shape (A (Grad y))) by (rewrite Tgy; unfold lin_osh; destruct sd; destruct Sy as [-> _]; reflexivity).
      replace (match sd with SideL => sum_fiber_async o_one (m_grad (node req y)) o_one (m_grad (node req n)) (ndim (m_val (node req y)) - 1) 0 false
        | SideR => sum_fiber_async o_one (m_grad (node req y)) o_one (m_grad (node req n)) 0 0 false end)
      with (sum_fiber_async (Fin 1) (A (Grad y)) (Fin 1) (A (Grad n)) (lin_axis sd sI) 0 false).
      2:{ rewrite <- Ea. destruct sd; reflexivity. }
      apply (h_sum_fiber 1 1 _ s1 (Grad y) (Grad n) (lin_axis sd sI) 0 gy (G1 n)); try assumption; [congruence|cbn [ov]; rewrite Ry, Gy1; reflexivity|cbn [ov]; rewrite Rn; reflexivity|].
      intros d _. unfold lin_db. rewrite Eo. ring.
    + intros s2 H2. eapply nd_weaken; [apply Last; exact H2|]. intros s3 _. apply Fin_.
  - apply py_skip. eapply nd_weaken; [apply Last; exact H1|]. intros s3 _. apply Fin_.
Qed.

Lemma linear_bwd sd tx x y w nd b id sI sK sJ bI bK bJ : linear_ok sd tx x y w nd b sI sK sJ bI bK bJ ->
  bwd_ok req (linear_layer sd tx x y w nd b id sI sK sJ).
Proof.
  intros H vs M G s Hs HD Hin Hsv. eapply nd_weaken; [apply (linear_bwd_all _ _ _ _ _ _ _ id _ _ _ _ _ _ H vs M G s Hs HD Hin Hsv)|].
  intros s' _ (M' & G' & H1 & H2 & H3 & H4). exists M', G'. split; [exact H1|]. split; [intros; apply H2|split; assumption].
Qed.

Lemma linear_layer_ok sd tx x y w nd b id sI sK sJ bI bK bJ : linear_ok sd tx x y w nd b sI sK sJ bI bK bJ ->
  layer_ok req (linear_layer sd tx x y w nd b id sI sK sJ).
Proof.
  intros H. split; [|split; [eapply linear_fwd|eapply linear_bwd]; eassumption]. intros vs M M' _ _. exact I.
Qed.
Lemma linear_vjp sd tx x y w nd b id sI sK sJ bI bK bJ : linear_ok sd tx x y w nd b sI sK sJ bI bK bJ ->
  vjp vshape (ly_m (linear_layer sd tx x y w nd b id sI sK sJ)).
Proof.
  intros H. destruct (lo_nodes _ _ _ _ _ _ _ _ _ _ _ _ _ H) as ((Ux & _) & (Uy & _) & (Uw & _) & Nb).
  pose proof (lo_x _ _ _ _ _ _ _ _ _ _ _ _ _ H) as Sx. pose proof (lo_w _ _ _ _ _ _ _ _ _ _ _ _ _ H) as Sw. pose proof (lo_yy _ _ _ _ _ _ _ _ _ _ _ _ _ H) as Sy.
  assert (Pw : pos (vshape w)) by (apply wf_ps, wf_wft, UW; assumption).
  assert (Py : pos (vshape y)) by (apply wf_ps, wf_wft, UW; assumption).
  assert (PP : pos sI /\ pos sK /\ pos sJ).
  { destruct sd; destruct Sw as [Ew _], Sy as [Ey _]; rewrite Ew in Pw; rewrite Ey in Py; unfold pos in *; rewrite Forall_app in Pw, Py; tauto. }
  destruct PP as (PI & PK & PJ).
  apply tv_vjp. cbn [ly_m linear_layer ml_out ml_D ml_F ml_dl].
  replace (vshape y) with (lin_osh sd sI sJ) by (unfold lin_osh; destruct sd; destruct Sy as [-> _]; reflexivity).
  unfold arity, inp. cbn [ml_ins]. apply lin_tv; try assumption.
  - cbn. lia.
  - destruct b as [n|]; [|discriminate]. intros _. destruct (lin_fiber _ _ _ _ _ _ _ _ _ _ _ _ _ n (A (Val y)) (A (Val n)) H eq_refl) as [(F1 & F2 & F3 & F4) _]; [split; reflexivity|split; reflexivity|].
    assert (Eo : lin_osh sd sI sJ = t_shape (A (Val y))) by (unfold lin_osh; unfold vshape in Sy; destruct sd; destruct Sy as [-> _]; reflexivity).
    split; [cbn; lia|]. rewrite Eo. split; [exact F3|]. lia.
  - destruct b; [discriminate|]. reflexivity.
  - destruct b; cbn; lia.
  - cbn. unfold vshape in *. destruct sd; destruct Sx as [-> _]; reflexivity.
  - cbn. unfold vshape in *. destruct sd; destruct Sw as [-> _]; reflexivity.
Qed.
End Layer.
